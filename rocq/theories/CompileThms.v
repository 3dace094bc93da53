(** The generated code of a schema file is what the file stands for. *)

Require Import ZArith String Ascii List Bool Lia ZifyBool ZifyNat.
From Verif Require Import Bits Stream Traits Schema.
From Verif Require AstExpr AstTypes CodecChoice CodecChoiceSpec CodecChoiceFacts Literals LiteralsSpec.
From Verif Require Import Packages Visitor VisitorSpec VisitorFacts Parser ParserSpec FileParser FileParserSpec FileParserSound Compile CompileSpec CompileFacts.
Import ListNotations.
Open Scope string_scope.
Open Scope list_scope.

(** ** Visiting succeeds *)

Lemma array_visit : forall I scope t a, array_means I scope t a -> exists x, visit_field_type t = Some (ft_name t, visit_inst (ft_inst t), x).
Proof. intros I scope t a H. destruct H; cbn; eauto. Qed.
Lemma align_visit : forall e a, align_means e a -> align_of e = Some (Z.of_nat a).
Proof.
  intros e a H. destruct H as [|t a H Ha]; [reflexivity|]. unfold align_of. rewrite (align_literal t _ H). now replace (Z.of_nat a <=? 255)%Z with true by lia.
Qed.
Lemma field_visit : forall I ds names scope f F, field_means I ds names scope f F -> visit_field f <> None.
Proof.
  intros I ds names scope f F H. destruct H as [f t a al cast Ht Ha Hal]. rewrite visit_field_eq. destruct (array_visit _ _ _ _ Ha) as (x & ->).
  rewrite (align_visit _ _ Hal). discriminate.
Qed.
Lemma member_visit : forall I ds names scope f F, member_means I ds names scope f F -> visit_choice_field f <> None.
Proof.
  intros I ds names scope f F H. destruct H as [f t a cast Ht Ha]. unfold visit_choice_field. destruct (array_visit _ _ _ _ Ha) as (x & ->). discriminate.
Qed.
Lemma slot_visit : forall I ds names scope l f F, slot_means I ds names scope f F -> visit_case (l, f) <> None.
Proof.
  intros I ds names scope l f F H. destruct H as [|f F H]; [discriminate|]. unfold visit_case. cbn [snd]. apply member_visit in H.
  destruct (visit_choice_field f); [discriminate|contradiction].
Qed.
Lemma all_visit : forall {A B C} (P : A -> B -> Prop) (v : A -> option C) l m, (forall x y, P x y -> v x <> None) -> Forall2 P l m -> visit_all v l <> None.
Proof.
  intros A B C P v l m H F. intros N. apply visit_all_none in N as (x & Hx & N). induction F as [|a b l m Hab F IH]; [contradiction|].
  destruct Hx as [->|Hx]; [exact (H _ _ Hab N)|auto].
Qed.

Lemma type_name_declares : forall d n, In n (type_name d) -> declares d = [n] /\ match d with CStruct _ | CChoice _ | CUnion _ | CEnum _ | CBitmask _ => True | _ => False end.
Proof. intros d n H. destruct d; cbn in *; try contradiction; destruct H as [<-|[]]; auto. Qed.

Lemma Forall2_in : forall {A B} (P : A -> B -> Prop) l m x, Forall2 P l m -> In x l -> exists y, P x y.
Proof. intros A B P l m x F. induction F as [|a b l m H F IH]; intros Hx; [contradiction|]. destruct Hx as [<-|Hx]; eauto. Qed.
Lemma file_visit : forall I f names sch, file_means I f names sch -> exists v, visit_file f = Some v.
Proof.
  intros I f names sch (Hp & Ho & Hi & Hn & Hall & Hd). unfold visit_file. destruct (cfl_package f) as [ids|]; [clear Hp|congruence].
  destruct (visit_directives _ _) as [v|] eqn:E; [eauto|]. exfalso. apply directives_none in E as (d & Hin & E).
  assert (K : forall n, type_name d = [n] -> exists D, def_means I (cfl_directives f) names n D).
  { intros n Hdn. assert (In n names) as Hnn by (apply Hall, in_flat_map; exists d; split; [exact Hin|rewrite Hdn; now left]).
    exact (Forall2_in _ _ _ _ Hd Hnn). }
  assert (U : forall d' n, In d' (cfl_directives f) -> declares d' = [n] -> declares d = [n] -> d = d').
  { intros d' n Hd' E1 E2. apply (name_unique _ d d' n Ho Hin Hd'); rewrite ?E1, ?E2; now left. }
  destruct d; try contradiction.
  - destruct (K _ eq_refl) as (D & HD). remember (cs_name s) as n eqn:En. destruct HD as [s' fs H1 H2 H3|u fs H1 H2 H3|c x i cases dd H1|e k t b H1|m b H1].
    + pose proof (U _ _ H1 eq_refl) as E1. cbn [declares] in E1. rewrite En in E1. specialize (E1 eq_refl). injection E1 as <-. unfold visit_struct in E.
      pose proof (all_visit _ visit_field _ _ (field_visit I _ _ _) H3). destruct (visit_all visit_field (cs_fields s)); [discriminate|contradiction].
    + pose proof (U _ _ H1 eq_refl) as E1. cbn [declares] in E1. rewrite En in E1. specialize (E1 eq_refl). discriminate.
    + pose proof (U _ _ H1 eq_refl) as E1. cbn [declares] in E1. rewrite En in E1. specialize (E1 eq_refl). discriminate.
    + pose proof (U _ _ H1 eq_refl) as E1. cbn [declares] in E1. rewrite En in E1. specialize (E1 eq_refl). discriminate.
    + pose proof (U _ _ H1 eq_refl) as E1. cbn [declares] in E1. rewrite En in E1. specialize (E1 eq_refl). discriminate.
  - destruct (K _ eq_refl) as (D & HD). remember (cc_name c) as n eqn:En. destruct HD as [s' fs H1 H2 H3|u fs H1 H2 H3|c' x i cases dd H1 H2 H3 H4 H5 H6 H7 H8|e k t b H1|m b H1].
    + pose proof (U _ _ H1 eq_refl) as E1. cbn [declares] in E1. rewrite En in E1. specialize (E1 eq_refl). discriminate.
    + pose proof (U _ _ H1 eq_refl) as E1. cbn [declares] in E1. rewrite En in E1. specialize (E1 eq_refl). discriminate.
    + pose proof (U _ _ H1 eq_refl) as E1. cbn [declares] in E1. rewrite En in E1. specialize (E1 eq_refl). injection E1 as <-. unfold visit_choice in E.
      pose proof (all_visit _ visit_case _ _ (fun x y H => match x as x return fst y = map (m_label I (cc_name c)) (fst x) /\ slot_means I (cfl_directives f) names (cc_name c) (snd x) (snd y) -> visit_case x <> None with (l, f0) => fun H => slot_visit I _ _ _ l f0 _ (proj2 H) end H) H7).
      destruct (visit_all visit_case (cc_cases c)); [|contradiction].
      destruct (cc_default c) as [g|]; [|discriminate]. pose proof (slot_visit I _ _ _ [] g dd H8). destruct (visit_case ([], g)); [discriminate|contradiction].
    + pose proof (U _ _ H1 eq_refl) as E1. cbn [declares] in E1. rewrite En in E1. specialize (E1 eq_refl). discriminate.
    + pose proof (U _ _ H1 eq_refl) as E1. cbn [declares] in E1. rewrite En in E1. specialize (E1 eq_refl). discriminate.
  - destruct (K _ eq_refl) as (D & HD). remember (cu_name u) as n eqn:En. destruct HD as [s' fs H1 H2 H3|u' fs H1 H2 H3|c x i cases dd H1|e k t b H1|m b H1].
    + pose proof (U _ _ H1 eq_refl) as E1. cbn [declares] in E1. rewrite En in E1. specialize (E1 eq_refl). discriminate.
    + pose proof (U _ _ H1 eq_refl) as E1. cbn [declares] in E1. rewrite En in E1. specialize (E1 eq_refl). injection E1 as <-. unfold visit_union in E.
      pose proof (all_visit _ visit_choice_field _ _ (member_visit I _ _ _) H3). destruct (visit_all visit_choice_field (cu_fields u)); [discriminate|contradiction].
    + pose proof (U _ _ H1 eq_refl) as E1. cbn [declares] in E1. rewrite En in E1. specialize (E1 eq_refl). discriminate.
    + pose proof (U _ _ H1 eq_refl) as E1. cbn [declares] in E1. rewrite En in E1. specialize (E1 eq_refl). discriminate.
    + pose proof (U _ _ H1 eq_refl) as E1. cbn [declares] in E1. rewrite En in E1. specialize (E1 eq_refl). discriminate.
Qed.
(** Every directive was visited. *)
Lemma visited : forall f v d, visit_file f = Some v -> In d (cfl_directives f) ->
  match d with CStruct s => visit_struct s <> None | CUnion u => visit_union u <> None | CChoice c => visit_choice c <> None | _ => True end.
Proof.
  intros f v d H Hd. unfold visit_file in H. destruct (cfl_package f) as [ids|]; [|discriminate].
  destruct d; try exact I; intros E; assert (N : visit_directives (mkPkg (join "." ids) (map visit_import (cfl_imports f)) [] [] [] [] [] [] [] []) (cfl_directives f) = None)
    by (apply directives_none; eexists; split; [exact Hd|exact E]); congruence.
Qed.

(** ** Types *)

Lemma single : forall n, ident n -> visit_type (CNamed [n] []) = Visitor.TRef false "" n 0 [].
Proof. intros n H. rewrite visit_named; [reflexivity|discriminate|auto]. Qed.
Lemma declared_ident : forall ds d n, Forall ident (flat_map declares ds) -> In d ds -> In n (declares d) -> ident n.
Proof. intros ds d n H Hd Hn. rewrite Forall_forall in H. apply H, in_flat_map. eauto. Qed.

Lemma original : forall f v k t t' fuel cast, visit_file f = Some v -> declared_once (cfl_directives f) -> Forall ident (flat_map declares (cfl_directives f)) ->
  stands_for (cfl_directives f) k t t' -> GetOriginalType (k + fuel) v (visit_type t) cast = GetOriginalType fuel v (visit_type t') (cast || (0 <? k)%nat).
Proof.
  intros f v k t t' fuel cast Hv Ho Hi H. revert cast. induction H as [t|k n t t' Hin H IH]; intros cast; [now rewrite orb_false_r|].
  rewrite (single n (declared_ident _ _ n Hi Hin (or_introl eq_refl))). cbn [plus GetOriginalType].
  destruct (tables f v _ n Hv Ho Hin (or_introl eq_refl)) as (T1 & T2 & T3 & T4 & T5 & T6 & T7 & T8).
  unfold find_symbol, has. rewrite T1, T2, T3, T4, T5, T6, T7, T8. cbn [orb option_map]. rewrite IH.
  cbn [orb]. now rewrite orb_true_r.
Qed.

Lemma declared_params : forall f v n params, visit_file f = Some v -> declared_once (cfl_directives f) -> has_params (cfl_directives f) n params ->
  find_symbol v n = Some SyMarshaler /\ params_of v n = Some (map visit_param params) /\ In n (flat_map declares (cfl_directives f)).
Proof.
  intros f v n params Hv Ho H.
  assert (K : exists d, In d (cfl_directives f) /\ In n (declares d) /\
    match d with
    | CStruct s => cs_templates s = [] /\ params = cs_params s
    | CUnion s => cu_templates s = [] /\ params = cu_params s
    | CChoice s => cc_templates s = [] /\ params = cc_params s
    | CEnum _ | CBitmask _ => params = []
    | _ => False
    end).
  { destruct H; eexists; (split; [eassumption|split; [now left|]]); cbn; auto. }
  clear H. destruct K as (d & Hd & Hn & K). destruct (tables f v _ n Hv Ho Hd Hn) as (T1 & T2 & T3 & T4 & T5 & T6 & T7 & T8).
  pose proof (visited f v d Hv Hd) as V. split; [|split; [|apply in_flat_map; eauto]]; unfold find_symbol, params_of, has; rewrite T1, T2, T3, T4, T5.
  - destruct d; try contradiction; try reflexivity; [destruct (visit_struct s)|destruct (visit_choice c)|destruct (visit_union u)]; easy.
  - destruct d; try contradiction; try (subst; reflexivity).
    + unfold visit_struct in *. destruct (visit_all visit_field (cs_fields s)); [|contradiction]. destruct K as [-> ->]. reflexivity.
    + unfold visit_choice in *. destruct (visit_all visit_case (cc_cases c)); [|contradiction].
      destruct (match cc_default c with Some _ => _ | None => _ end); [|contradiction]. destruct K as [-> ->]. reflexivity.
    + unfold visit_union in *. destruct (visit_all visit_choice_field (cu_fields u)); [|contradiction]. destruct K as [-> ->]. reflexivity.
Qed.

Lemma place_nth : forall names i n, NoDup names -> nth_error names i = Some n -> place n names = Some i.
Proof.
  induction names as [|m l IH]; intros i n H E; [destruct i; discriminate|]. inversion H as [|? ? Hm Hl]; subst. cbn [place]. destruct i as [|i].
  - injection E as ->. now rewrite String.eqb_refl.
  - cbn in E. destruct (String.eqb_spec m n) as [->|_]; [|now rewrite (IH i n)]. exfalso. apply Hm. now apply nth_error_In in E.
Qed.

Lemma args_list : forall I M scope params es fs, agree I M -> length params = length es ->
  Forall2 (fun pe f => f = m_arg I scope (fst pe) (snd pe)) (combine params es) fs ->
  map2 (m_arg M scope) (map visit_param params) (map visit_arg (map CArg es)) = fs.
Proof.
  intros I M scope params es fs (_ & _ & Ha & _). revert es fs. induction params as [|p params IH]; intros [|e es] fs Hl H; try discriminate Hl; inversion H; subst; [reflexivity|].
  cbn [map map2 visit_arg]. rewrite Ha. f_equal. apply IH; [now injection Hl|assumption].
Qed.

Lemma type_compiled : forall I M f v names scope i t cast, agree I M -> visit_file f = Some v -> declared_once (cfl_directives f) ->
  Forall ident (flat_map declares (cfl_directives f)) -> NoDup names ->
  type_means I (cfl_directives f) names scope i t cast -> compile_type M v names scope (visit_inst i) = Some (t, cast).
Proof.
  intros I M f v names scope i t cast A Hv Ho Hi Hn H. destruct H as [t ps b Hb|k t t' b Hk Ht Hb|k t n ps i params fs Hk Ht Hp Hi' Ha].
  - destruct (builtin_ref _ _ _ _ _ Hb) as (n & bits & Et & E). unfold compile_type, visit_inst. cbn [ci_type ci_params].
    destruct ps as [|l|e]; [| contradiction |]; cbn [ti_ref ti_args ti_length]; rewrite Et; cbn [GetOriginalType].
    + cbn [option_map]. now rewrite E.
    + destruct A as (A & _). cbn [option_map]. rewrite A. now rewrite E.
  - destruct (builtin_ref _ _ _ _ _ Hb) as (n & bits & Et & E). unfold compile_type, visit_inst. cbn [ci_type ci_params ti_ref ti_args ti_length].
    replace 101%nat with (k + Datatypes.S (100 - k))%nat by lia. rewrite (original f v k t t' _ false Hv Ho Hi Ht). rewrite Et. cbn [GetOriginalType orb].
    replace (0 <? k)%nat with true by lia. now rewrite E.
  - destruct (declared_params f v n params Hv Ho Hp) as (Hs & Hpo & Hin). unfold compile_type.
    assert (Er : ti_ref (visit_inst (mkCI t ps)) = visit_type t) by (destruct ps; reflexivity). rewrite Er.
    replace 101%nat with (k + Datatypes.S (100 - k))%nat by lia. rewrite (original f v k t _ _ false Hv Ho Hi Ht).
    rewrite single by (rewrite Forall_forall in Hi; auto). cbn [GetOriginalType orb]. rewrite Hs. rewrite (place_nth names i n Hn Hi'), Hpo.
    destruct Ha as [|params es fs Hne Hfs Hl].
    + reflexivity.
    + cbn [visit_inst ci_params ti_args ci_type]. rewrite !map_length, Hl, Nat.eqb_refl. now rewrite (args_list I M scope params es fs A Hl Hfs).
Qed.

(** ** Fields *)

Lemma array_compiled : forall I M scope t a x, agree I M -> array_means I scope t a -> visit_field_type t = Some (ft_name t, visit_inst (ft_inst t), x) ->
  option_map (fun y => (option_map (m_int M scope) (a_length y), a_packed y)) x = a.
Proof.
  intros I M scope t a x (A & _) H E. destruct H; cbn in E; injection E as <-; cbn; try reflexivity. now rewrite A.
Qed.
Lemma field_compiled : forall I M f v names scope x F, agree I M -> visit_file f = Some v -> declared_once (cfl_directives f) ->
  Forall ident (flat_map declares (cfl_directives f)) -> NoDup names -> field_means I (cfl_directives f) names scope x F ->
  exists y, visit_field x = Some y /\ compile_field M v names scope y = Some F.
Proof.
  intros I M f v names scope x F A Hv Ho Hi Hn H. destruct H as [x t a al cast Ht Ha Hal]. rewrite visit_field_eq. destruct (array_visit _ _ _ _ Ha) as (y & E).
  rewrite E, (align_visit _ _ Hal). eexists. split; [reflexivity|]. unfold compile_field. cbn [Visitor.f_type Visitor.f_array Visitor.f_optional f_alignment f_if].
  rewrite (type_compiled I M f v names scope _ t cast A Hv Ho Hi Hn Ht). rewrite (array_compiled I M scope _ a y A Ha E). rewrite Nat2Z.id.
  f_equal. f_equal. destruct (cf_if x) as [e|]; [|reflexivity]. cbn. f_equal. apply A.
Qed.
Lemma member_compiled : forall I M f v names scope x F, agree I M -> visit_file f = Some v -> declared_once (cfl_directives f) ->
  Forall ident (flat_map declares (cfl_directives f)) -> NoDup names -> member_means I (cfl_directives f) names scope x F ->
  exists y, visit_choice_field x = Some y /\ compile_field M v names scope y = Some F.
Proof.
  intros I M f v names scope x F A Hv Ho Hi Hn H. destruct H as [x t a cast Ht Ha]. unfold visit_choice_field. destruct (array_visit _ _ _ _ Ha) as (y & E).
  rewrite E. eexists. split; [reflexivity|]. unfold compile_field. cbn [Visitor.f_type Visitor.f_array Visitor.f_optional f_alignment f_if].
  rewrite (type_compiled I M f v names scope _ t cast A Hv Ho Hi Hn Ht). now rewrite (array_compiled I M scope _ a y A Ha E).
Qed.
Lemma all_compiled : forall {A B C} (P : A -> C -> Prop) (v : A -> option B) (c : B -> option C) l m,
  (forall x z, P x z -> exists y, v x = Some y /\ c y = Some z) -> Forall2 P l m -> exists r, visit_all v l = Some r /\ visit_all c r = Some m.
Proof.
  intros A B C P v c l m H F. induction F as [|x z l m Hxz F (r & IH1 & IH2)]; [exists []; auto|].
  destruct (H x z Hxz) as (y & E1 & E2). exists (y :: r). cbn [visit_all]. now rewrite E1, E2, IH1, IH2.
Qed.
Lemma case_compiled : forall I M f v names scope x F, agree I M -> visit_file f = Some v -> declared_once (cfl_directives f) ->
  Forall ident (flat_map declares (cfl_directives f)) -> NoDup names ->
  fst F = map (m_label I scope) (fst x) /\ slot_means I (cfl_directives f) names scope (snd x) (snd F) ->
  exists y, visit_case x = Some y /\ compile_case M v names scope y = Some F.
Proof.
  intros I M f v names scope [es x] [ls F] A Hv Ho Hi Hn [Hl H]. cbn [fst snd] in *.
  assert (El : map (m_label M scope) (map visit_expr es) = ls).
  { rewrite Hl, map_map. apply map_ext. intros e. apply A. }
  unfold visit_case, compile_case. cbn [fst snd]. destruct H as [|x F H].
  - eexists. split; [reflexivity|]. cbn. now rewrite El.
  - destruct (member_compiled I M f v names scope x F A Hv Ho Hi Hn H) as (y & E1 & E2). rewrite E1. eexists. split; [reflexivity|]. cbn [snd fst]. now rewrite E2, El.
Qed.

(** ** Declarations *)

Lemma def_compiled : forall I M f v names n D, agree I M -> visit_file f = Some v -> declared_once (cfl_directives f) ->
  Forall ident (flat_map declares (cfl_directives f)) -> NoDup names -> def_means I (cfl_directives f) names n D -> compile_def M v names n = Some D.
Proof.
  intros I M f v names n D A Hv Ho Hi Hn H. destruct H as [s fs Hs Ht Hf|u fs Hs Ht Hf|c x i cases d Hs Ht Hx Hnd Hi' Hu Hc Hd|e k t b Hs Hp Hk Ht Hb|m b Hs Hp Hb].
  - destruct (tables f v _ _ Hv Ho Hs (or_introl eq_refl)) as (T1 & T2 & T3 & T4 & T5 & _). unfold compile_def. rewrite T1, T2, T3, T4, T5. unfold visit_struct.
    destruct (all_compiled _ visit_field (compile_field M v names (cs_name s)) _ _ (fun x z => field_compiled I M f v names (cs_name s) x z A Hv Ho Hi Hn) Hf) as (r & -> & E).
    cbn [s_templates s_fields]. rewrite Ht, E. reflexivity.
  - destruct (tables f v _ _ Hv Ho Hs (or_introl eq_refl)) as (T1 & T2 & T3 & T4 & T5 & _). unfold compile_def. rewrite T2, T3, T5. unfold visit_union.
    destruct (all_compiled _ visit_choice_field (compile_field M v names (cu_name u)) _ _ (fun x z => member_compiled I M f v names (cu_name u) x z A Hv Ho Hi Hn) Hf) as (r & -> & E).
    cbn [u_templates u_fields]. rewrite Ht, E. reflexivity.
  - destruct (tables f v _ _ Hv Ho Hs (or_introl eq_refl)) as (T1 & T2 & T3 & T4 & T5 & _). unfold compile_def. rewrite T2. unfold visit_choice.
    destruct (all_compiled _ visit_case (compile_case M v names (cc_name c)) _ _ (fun x z => case_compiled I M f v names (cc_name c) x z A Hv Ho Hi Hn) Hc) as (r & -> & E).
    assert (Edef : exists y, match cc_default c with None => Some None | Some g => option_map Some (visit_case ([], g)) end = Some y /\ compile_default M v names (cc_name c) y = Some d).
    { destruct (cc_default c) as [[g|]|]; inversion Hd as [|? F HF]; subst; cbn [visit_case snd fst option_map]; [|eexists; split; reflexivity|eexists; split; reflexivity].
      destruct (member_compiled I M f v names (cc_name c) g F A Hv Ho Hi Hn HF) as (y & E1 & E2). unfold visit_case. cbn [snd fst]. rewrite E1. cbn [option_map].
      eexists. split; [reflexivity|]. cbn [compile_default]. now rewrite E2. }
    destruct Edef as (y & E1 & E2). rewrite E1. cbn [c_templates c_params c_selector c_cases c_default]. rewrite Ht, E, E2, Hx. cbn [visit_expr compile_selector].
    rewrite (tables_none f v x Hv Hu). rewrite map_map. change (map (fun x0 => fst (visit_param x0)) (cc_params c)) with (map snd (cc_params c)).
    now rewrite (place_nth _ i x Hnd Hi').
  - destruct (tables f v _ _ Hv Ho Hs (or_introl eq_refl)) as (T1 & T2 & T3 & T4 & T5 & _). unfold compile_def. rewrite T2, T3, T4, T5. unfold visit_enum. cbn [e_type].
    destruct (builtin_ref _ _ _ _ _ Hb) as (n & bits & Et & E). unfold compile_scalar.
    assert (Er : ti_ref (visit_inst (ce_type e)) = visit_type (ci_type (ce_type e))) by (destruct (ce_type e) as [? []]; reflexivity). rewrite Er.
    replace 101%nat with (k + Datatypes.S (100 - k))%nat by lia. rewrite (original f v k _ _ _ false Hv Ho Hi Ht), Et. cbn [GetOriginalType andb]. now rewrite E.
  - destruct (tables f v _ _ Hv Ho Hs (or_introl eq_refl)) as (T1 & T2 & T3 & T4 & T5 & _). unfold compile_def. rewrite T2, T5. unfold visit_bitmask. cbn [b_type].
    destruct (builtin_ref _ _ _ _ _ Hb) as (n & bits & Et & E). unfold compile_scalar.
    assert (Er : ti_ref (visit_inst (cb_type m)) = visit_type (ci_type (cb_type m))) by (destruct (cb_type m) as [? []]; reflexivity). rewrite Er, Et.
    cbn [GetOriginalType andb]. now rewrite E.
Qed.

Lemma file_compiled : forall I M f names sch, agree I M -> file_means I f names sch ->
  exists v, visit_file f = Some v /\ compile M v names = Some sch.
Proof.
  intros I M f names sch A H. destruct (file_visit I f names sch H) as (v & Hv). exists v. split; [exact Hv|].
  destruct H as (_ & Ho & Hi & Hn & _ & H). unfold compile.
  assert (G : forall l m, Forall2 (def_means I (cfl_directives f) names) l m -> visit_all (compile_def M v names) l = Some m).
  { intros l m F. induction F as [|n D l m HD F IH]; [reflexivity|]. cbn [visit_all]. rewrite (def_compiled I M f v names n D A Hv Ho Hi Hn HD). now rewrite IH. }
  exact (G _ _ H).
Qed.
Lemma text_compiled : forall I M f ts s names sch, agree I M -> file_ok true f -> file_written f ts -> text_of ts s -> file_means I f names sch ->
  generate M names s = Some sch.
Proof.
  intros I M f ts s names sch A Ok W T H. unfold generate. rewrite (text_reads f ts s Ok W T).
  destruct (file_compiled I M f names sch A H) as (v & -> & E). exact E.
Qed.
