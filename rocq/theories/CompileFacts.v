(** Proofs about the generated code of schema files. *)

Require Import ZArith String Ascii List Bool Lia ZifyBool ZifyNat.
From Verif Require Import Bits Stream Traits Schema.
From Verif Require AstExpr AstTypes CodecChoice CodecChoiceSpec CodecChoiceFacts Literals LiteralsSpec.
From Verif Require Import Packages Visitor VisitorSpec VisitorFacts Parser FileParser Compile CompileSpec.
Import ListNotations.
Open Scope string_scope.
Open Scope list_scope.

(** ** Builtin types *)

(** The codec of a type is what the generated calls do. *)
Lemma codecs_named : forall n b, AstTypes.assoc n codecs = Some b -> exists g, In (n, (b, g)) CodecChoiceSpec.named_types.
Proof.
  intros n b H. unfold codecs in H. cbn [AstTypes.assoc] in H.
  repeat match type of H with (if (?x =? n)%string then _ else _) = _ => destruct (String.eqb_spec x n) as [<-|]; [injection H as <-; eexists; repeat (first [left; reflexivity | right])|] end.
  discriminate.
Qed.
Lemma named_codec : forall n b g, In (n, (b, g)) CodecChoiceSpec.named_types -> AstTypes.assoc n codecs = Some b /\ AstTypes.VisitTypeReference n = AstExpr.mkT n 0 false.
Proof.
  intros n b g H. unfold CodecChoiceSpec.named_types in H.
  repeat (destruct H as [H|H]; [injection H as <- <- <-; split; reflexivity|]). contradiction.
Qed.
Lemma basic_code : forall n bits dyn w b, (0 <= bits)%Z -> builtin_basic (AstExpr.mkT n bits dyn) w = Some b ->
  exists go, AstTypes.GoType (AstExpr.mkT n bits dyn) = Some go /\
  (forall E v, CodecChoice.run_write (CodecChoice.encode_call (AstExpr.mkT n bits dyn) w) E v = Some (write_basic E b v)) /\
  (forall E, CodecChoice.run_read (CodecChoice.decode_call (AstExpr.mkT n bits dyn) w) go E = Some (read_basic E b)).
Proof.
  intros n bits dyn w b Hb H. unfold builtin_basic in H. unfold CodecChoice.encode_call, CodecChoice.decode_call. cbn [AstExpr.t_bits AstExpr.t_dynamic AstExpr.t_name] in *.
  destruct ((0 <? bits)%Z || dyn) eqn:E.
  - destruct (AstTypes.GoType _) as [go|]; [|discriminate]. destruct (AstTypes.assoc go CodecChoice.go_ints) as [g|] eqn:Eg; [|discriminate].
    injection H as <-. exists go. split; [reflexivity|]. split; [reflexivity|]. intros E0. cbn [CodecChoice.run_read]. rewrite Eg. cbn [option_map read_basic]. reflexivity.
  - apply orb_false_elim in E as [E ->]. replace bits with 0%Z in * by lia.
    destruct (AstTypes.assoc n codecs) as [c|] eqn:Ec; [|discriminate]. injection H as <-. destruct (codecs_named n c Ec) as (g & Hin).
    destruct (CodecChoiceFacts.named_consistent n c g Hin) as (H1 & H2 & _ & H3 & _). exists g. split; [exact H1|]. split.
    + intros E0 v. specialize (H2 E0 v). exact H2.
    + intros E0. specialize (H3 E0). exact H3.
Qed.

Lemma visit_width : forall (signed : bool) w, (1 <= w <= 64)%nat ->
  visit_type (CBitField signed (Some w)) =
  if existsb (Nat.eqb w) [8; 16; 32; 64]%nat then Visitor.TRef true "" ((if signed then "int" else "uint") ++ string_of_list_ascii (Files.decimal w))%string 0 []
  else Visitor.TRef true "" (if signed then "int" else "bit") (Z.of_nat w) [].
Proof.
  intros signed w Hw. assert (Hin : In w (seq 1 64)) by (apply in_seq; lia). clear Hw. revert w Hin. apply Forall_forall.
  cbn [seq]. repeat (apply Forall_cons; [destruct signed; vm_compute; reflexivity|]). apply Forall_nil.
Qed.
Lemma standard_name : forall (signed : bool) w, In w [8; 16; 32; 64]%nat ->
  AstTypes.assoc ((if signed then "int" else "uint") ++ string_of_list_ascii (Files.decimal w))%string codecs =
  Some (if signed then BSBits (GS (Z.of_nat w)) (Z.of_nat w) else BBits (GU (Z.of_nat w)) (Z.of_nat w)).
Proof. intros signed w Hw. cbn [In] in Hw. destruct Hw as [<-|[<-|[<-|[<-|[]]]]]; destruct signed; reflexivity. Qed.
Lemma width_go : forall (signed : bool) w g, (1 <= w <= 64)%nat -> ~ In w [8; 16; 32; 64]%nat -> CodecChoiceSpec.smallest (Z.of_nat w) g ->
  basic_of (if signed then "int" else "bit") (Z.of_nat w) None = Some (Bits signed (CodecChoiceSpec.gint signed g) (fun _ => Some (Z.of_nat w))).
Proof.
  intros signed w g Hw Hn (Hin & Hle & Hmin). unfold basic_of, builtin_basic. cbn [AstExpr.t_bits AstExpr.t_dynamic AstExpr.t_name orb].
  replace (0 <? Z.of_nat w)%Z with true by lia. cbn [orb].
  assert (Egb : AstTypes.goBits (Z.of_nat w) = match g with 8 => "8" | 16 => "16" | 32 => "32" | _ => "64" end%Z%string).
  { unfold AstTypes.goBits. pose proof (Hmin 8%Z) as H8. pose proof (Hmin 16%Z) as H16. pose proof (Hmin 32%Z) as H32. cbn [In] in *.
    replace (Z.of_nat w =? 0)%Z with false by lia.
    destruct Hin as [<-|[<-|[<-|[<-|[]]]]].
    - replace (Z.of_nat w <=? 8)%Z with true by lia. reflexivity.
    - replace (Z.of_nat w <=? 8)%Z with false by lia. replace (Z.of_nat w <=? 16)%Z with true by lia. reflexivity.
    - replace (Z.of_nat w <=? 8)%Z with false by lia. replace (Z.of_nat w <=? 16)%Z with false by lia. replace (Z.of_nat w <=? 32)%Z with true by lia. reflexivity.
    - replace (Z.of_nat w <=? 8)%Z with false by lia. replace (Z.of_nat w <=? 16)%Z with false by lia. replace (Z.of_nat w <=? 32)%Z with false by lia. reflexivity. }
  unfold AstTypes.GoType. cbn [In] in Hin.
  destruct signed; cbn [AstExpr.t_name AstExpr.t_dynamic AstExpr.t_bits String.eqb Ascii.eqb Bool.eqb orb]; rewrite Egb;
    destruct Hin as [<-|[<-|[<-|[<-|[]]]]]; reflexivity.
Qed.

(** The reference of a builtin type, and its codec. *)
Lemma builtin_ref : forall I scope t ps b, builtin_means I scope t ps b ->
  exists n bits, visit_type t = Visitor.TRef true "" n bits [] /\
    match ps with
    | CNone => basic_of n bits None = Some b
    | CLength e => basic_of n bits (Some (m_int I scope e)) = Some b
    | CArgs _ => False
    end.
Proof.
  intros I scope t ps b H. destruct H as [n b g H|signed w H|signed w g H1 H2 H3|signed e].
  - destruct (named_codec n b g H) as [H1 H2]. exists n, 0%Z. cbn [visit_type]. rewrite H2. split; [reflexivity|].
    unfold basic_of, builtin_basic. cbn [AstExpr.t_bits AstExpr.t_dynamic AstExpr.t_name orb Z.ltb Z.compare]. now rewrite H1.
  - assert (Hw : (1 <= w <= 64)%nat) by (cbn [In] in H; lia). rewrite (visit_width signed w Hw).
    replace (existsb (Nat.eqb w) [8; 16; 32; 64]%nat) with true by (symmetry; apply existsb_exists; exists w; split; [exact H|apply Nat.eqb_refl]).
    eexists _, _. split; [reflexivity|]. unfold basic_of, builtin_basic. cbn [AstExpr.t_bits AstExpr.t_dynamic AstExpr.t_name orb Z.ltb Z.compare].
    now rewrite (standard_name signed w H).
  - rewrite (visit_width signed w H1).
    replace (existsb (Nat.eqb w) [8; 16; 32; 64]%nat) with false.
    + eexists _, _. split; [reflexivity|]. now apply width_go.
    + destruct (existsb _ _) eqn:E; [|reflexivity]. apply existsb_exists in E as (x & Hx & E). apply Nat.eqb_eq in E. subst x. contradiction.
  - destruct signed; (eexists _, _; split; [reflexivity|reflexivity]).
Qed.

(** ** Names *)

Lemma name_unique : forall ds d d' n, declared_once ds -> In d ds -> In d' ds -> In n (declares d) -> In n (declares d') -> d = d'.
Proof.
  unfold declared_once. induction ds as [|x ds IH]; intros d d' n H Hd Hd' Hn Hn'; [contradiction|]. cbn [flat_map] in H.
  assert (Hdis : forall y, In y ds -> In n (declares x) -> In n (declares y) -> False).
  { intros y Hy H1 H2. apply in_split in H1 as (l1 & l2 & E). rewrite E, <- app_assoc in H. cbn [app] in H.
    apply NoDup_remove_2 in H. apply H. apply in_or_app. right. apply in_or_app. right. apply in_flat_map. eauto. }
  destruct Hd as [<-|Hd], Hd' as [<-|Hd']; [reflexivity|exfalso; eauto|exfalso; eauto|].
  apply (IH d d' n); auto. clear - H. revert H. generalize (declares x). induction l as [|a l IHl]; intros H; [exact H|]. inversion H. auto.
Qed.
Lemma only_such : forall {A} (pick : cdirective -> option A) (name : A -> string) ds d x, declared_once ds -> (forall d y, pick d = Some y -> declares d = [name y]) ->
    In d ds -> pick d = Some x -> last_such pick name (name x) ds x.
  Proof.
    intros A pick name ds d x H Hp Hd Hx. destruct (in_split d ds Hd) as (l1 & l2 & E). exists l1, d, l2. split; [exact E|]. split; [exact Hx|]. split; [reflexivity|].
    intros d' y Hd' Hy En. unfold declared_once in H. rewrite E, flat_map_app in H. cbn [flat_map] in H. rewrite (Hp d x Hx) in H. cbn [app] in H.
    apply NoDup_remove_2 in H. apply H. apply in_or_app. right. apply in_flat_map. exists d'. split; [exact Hd'|]. rewrite (Hp d' y Hy), En. now left.
  Qed.
Lemma other_such : forall {A} (pick : cdirective -> option A) (name : A -> string) ds d n, declared_once ds -> (forall d y, pick d = Some y -> declares d = [name y]) ->
    In d ds -> In n (declares d) -> pick d = None -> no_such pick name n ds.
  Proof.
    intros A pick name ds d n H Hp Hd Hn Hx d' y Hd' Hy En. assert (d = d') by (apply (name_unique ds d d' n); auto; rewrite (Hp d' y Hy), En; now left). subst d'. congruence.
  Qed.
Lemma none_such : forall {A} (pick : cdirective -> option A) (name : A -> string) ds n, (forall d y, pick d = Some y -> declares d = [name y]) -> ~ In n (flat_map declares ds) -> no_such pick name n ds.
  Proof. intros A pick name ds n Hp H d y Hd Hy En. apply H. apply in_flat_map. exists d. split; [exact Hd|]. rewrite (Hp d y Hy), En. now left. Qed.
Ltac picks := intros ? ?; match goal with |- _ ?d = _ -> _ => destruct d; try discriminate; let X := fresh in intros X; injection X as <-; reflexivity end.

(** What the maps of the package hold for the name of a directive. *)
Lemma tables : forall f v d n, visit_file f = Some v -> declared_once (cfl_directives f) -> In d (cfl_directives f) -> In n (declares d) ->
  get n (vp_structs v) = match d with CStruct s => visit_struct s | _ => None end /\
  get n (vp_choices v) = match d with CChoice s => visit_choice s | _ => None end /\
  get n (vp_unions v) = match d with CUnion s => visit_union s | _ => None end /\
  get n (vp_enums v) = match d with CEnum s => Some (visit_enum s) | _ => None end /\
  get n (vp_bitmasks v) = match d with CBitmask s => Some (visit_bitmask s) | _ => None end /\
  get n (vp_consts v) = match d with CConst t m e => Some (visit_const t m e) | _ => None end /\
  get n (vp_subtypes v) = match d with CSubtype t _ => Some (visit_type t) | _ => None end /\
  get n (vp_instantiated v) = match d with CInstantiate t _ => Some (visit_type t) | _ => None end.
Proof.
  intros f v d n Hv H Hd Hn.
  destruct (file_structs f v n Hv) as [S1 S2]. destruct (file_choices f v n Hv) as [C1 C2]. destruct (file_unions f v n Hv) as [U1 U2].
  destruct (file_enums f v n Hv) as [E1 E2]. destruct (file_bitmasks f v n Hv) as [B1 B2]. destruct (file_consts f v n Hv) as [K1 K2].
  destruct (file_subtypes f v n Hv) as [T1 T2]. destruct (file_instantiated f v n Hv) as [I1 I2].
  destruct d; cbn [declares In] in Hn; try contradiction; destruct Hn as [<-|[]].
  all: repeat match goal with |- _ /\ _ => split end.
  all: try (match goal with H : no_such _ _ _ _ -> ?X = None |- ?X = None => apply H; eapply other_such; [eassumption|picks|eassumption|now left|reflexivity] end).
  - apply K2. apply (only_such pick_const (fun x => snd (fst x)) _ (CConst t name e) (t, name, e)); [assumption|picks|assumption|reflexivity].
  - apply (T2 t name). apply (only_such pick_subtype snd _ (CSubtype t name) (t, name)); [assumption|picks|assumption|reflexivity].
  - apply S2. apply (only_such pick_struct cs_name _ (CStruct s) s); [assumption|picks|assumption|reflexivity].
  - apply C2. apply (only_such pick_choice cc_name _ (CChoice c) c); [assumption|picks|assumption|reflexivity].
  - apply U2. apply (only_such pick_union cu_name _ (CUnion u) u); [assumption|picks|assumption|reflexivity].
  - apply E2. apply (only_such pick_enum ce_name _ (CEnum e) e); [assumption|picks|assumption|reflexivity].
  - apply B2. apply (only_such pick_bitmask cb_name _ (CBitmask b) b); [assumption|picks|assumption|reflexivity].
  - apply (I2 t name). apply (only_such pick_instantiate snd _ (CInstantiate t name) (t, name)); [assumption|picks|assumption|reflexivity].
Qed.
Lemma tables_none : forall f v n, visit_file f = Some v -> ~ In n (flat_map declares (cfl_directives f)) -> find_symbol v n = None.
Proof.
  intros f v n Hv H.
  destruct (file_structs f v n Hv) as [S1 _]. destruct (file_choices f v n Hv) as [C1 _]. destruct (file_unions f v n Hv) as [U1 _].
  destruct (file_enums f v n Hv) as [E1 _]. destruct (file_bitmasks f v n Hv) as [B1 _]. destruct (file_consts f v n Hv) as [K1 _].
  destruct (file_subtypes f v n Hv) as [T1 _]. destruct (file_instantiated f v n Hv) as [I1 _].
  unfold find_symbol, has. rewrite S1, C1, U1, E1, B1, K1, T1, I1; [reflexivity|..]; (apply none_such; [picks|exact H]).
Qed.
