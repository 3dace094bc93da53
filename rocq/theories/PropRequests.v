(** Property C107: how much memory decoding asks for. *)

Require Import ZArith List Bool Lia ZifyBool ZifyNat.
From Verif Require Import Bits BitsFacts Stream Spec Scalars Traits TraitSpec Delta Array Schema SchemaSpec SchemaExample DecodeSpec DecodeFacts DecodeRange DecodeThms
  Requests RequestsSpec RequestsFacts.
Import ListNotations.
Open Scope Z_scope.

(** ** What can be said *)

(** An object that is read, nested at most [n] deep: all slices made for it together
    have at most 2n+1 elements for each bit that was read. *)
Theorem C107_success : forall S params n id ps r r' v, go_types S -> passes S params -> dense S params -> no_packed_arrays S -> params id ps ->
  UnmarshalZserio S n id ps r = (r', Ok v) ->
  total (object_requests S n id ps r) <= (2 * Z.of_nat n + 1) * (left r - left r').
Proof.
  intros S params n id ps r r' v Go Pa D Np Hps H.
  assert (Lm : limited S params (2 ^ 63)).
  { intros id0 d i f l packed ps0 E m _ _ _ _ _ _. pose proof (to_s_range 64 m ltac:(lia)) as B. unfold i64. change (64 - 1) with 63 in B. lia. }
  pose proof (object_costs S params (2 ^ 63) Go Pa D Np Lm ltac:(unfold MaxVarsize; lia) n id ps Hps r) as C. rewrite H in C. apply C.
Qed.
Print Assumptions C107_success.

(** They have at least as many as the slices and strings of the object. *)
Theorem C107_least : forall S n id ps r r' v, no_packed_arrays S -> UnmarshalZserio S n id ps r = (r', Ok v) ->
  slices v <= total (object_requests S n id ps r).
Proof. intros S n id ps r r' v Np H. exact (object_least S Np n id ps r r' v H). Qed.
Print Assumptions C107_least.

(** Whatever the outcome: besides, n+1 slices of the greatest length can be made that
    the input does not fill. *)
Theorem C107_any : forall S params limit n id ps r, go_types S -> passes S params -> dense S params -> no_packed_arrays S -> limited S params limit ->
  2 ^ 31 - 1 <= limit -> params id ps ->
  total (object_requests S n id ps r) <= (2 * Z.of_nat n + 1) * left r + (Z.of_nat n + 1) * limit.
Proof.
  intros S params limit n id ps r Go Pa D Np Lm L Hps. pose proof (object_costs S params limit Go Pa D Np Lm L n id ps Hps r) as C. pose proof (left_pos r).
  destruct (UnmarshalZserio S n id ps r) as [r' [v|e| |]]; try exact C. destruct C as [C1 C2]. pose proof (left_pos r'). nia.
Qed.
Print Assumptions C107_any.

(** Each slice is within the limit, elements without bits included. *)
Theorem C107_each : forall S params limit n id ps r m, go_types S -> passes S params -> no_packed_arrays S -> limited S params limit ->
  2 ^ 31 - 1 <= limit -> params id ps -> In m (object_requests S n id ps r) -> m <= limit.
Proof. intros S params limit n id ps r m Go Pa Np Lm L Hps H. exact (object_each S params limit Go Pa Np Lm L n id ps Hps r m H). Qed.
Print Assumptions C107_each.

(** ** An example *)

(** struct Point { varint16 x; string s; }
    struct Track { uint8 n; Point points[n]; subtype uint16 Level; Level levels[]; } *)
Definition track_schema : schema :=
  [DStruct [plain_field (TBasic (Std BVarint16)); plain_field (TBasic (Std BString))];
   DStruct [plain_field (TBasic (Std (BBits (GU 8) 8))); mkF (TRef 0 no_args) (Some (Some (slot_int 0), false)) false None 0 false;
            mkF (TBasic (Std (BBits (GU 16) 16))) (Some (None, false)) false None 0 true]].
Definition any_params : nat -> list value -> Prop := fun _ _ => True.
Definition track_input : rst := mkR 0 (concat (map (bits_of 8) [2; 5; 3; 97; 98; 99; 6; 1; 100; 2; 0; 7; 1; 0])).
Definition track_value : value :=
  VRec 0 [Some (VInt 2); Some (VArr [VRec 0 [Some (VInt 5); Some (VStr [97; 98; 99])]; VRec 0 [Some (VInt 6); Some (VStr [100])]]); Some (VArr [VInt 7; VInt 256])].

Lemma track_plain : no_packed_arrays track_schema.
Proof.
  intros id d f Hd Hf [len Hp]. destruct id as [|[|id]]; [injection Hd as <- ..|destruct id; discriminate];
    [destruct Hf as [<-|[<-|[]]]|destruct Hf as [<-|[<-|[<-|[]]]]]; discriminate.
Qed.
Lemma point_takes : forall fuel ps r r' v, UnmarshalZserio track_schema fuel 0 ps r = (r', Ok v) -> left r' < left r.
Proof.
  intros [|fuel] ps r r' v H; [discriminate|]. unfold UnmarshalZserio in H. cbn [run m_unmarshal of_def nth_error track_schema unmarshal_def read_fields] in H.
  assert (P : forall E f, f_array f = None -> prefix_determined (read_field (run track_schema fuel) E f)).
  { intros E f Hf. apply pd_field; [intros [len X]; congruence|]. intros id ps'. exact (plain_prefix track_schema fuel id ps' track_plain). }
  assert (T : forall E, takes (read_field (run track_schema fuel) E (plain_field (TBasic (Std BVarint16))))).
  { intros E. apply needs_takes; [now apply P|]. intros q Hq. refine (needs_bind 1 (read_content (run track_schema fuel) E (plain_field (TBasic (Std BVarint16)))) (fun v => rret (Some v)) _ q Hq).
    apply needs_bind. apply (needs_one BVarint16 I). }
  unfold rbind in H. match type of H with context [read_field ?M ?E1 ?f r] => destruct (read_field M E1 f r) as [r1 [s|e| |]] eqn:E; try discriminate; pose proof (T E1 _ _ _ E) end.
  match type of H with context [read_field ?M ?E2 ?f r1] => destruct (read_field M E2 f r1) as [r2 [s2|e| |]] eqn:F; try discriminate; pose proof (pd_shrinks _ (P E2 f eq_refl) _ _ _ F) end.
  cbn in H. injection H as <- _. lia.
Qed.
Example C107_applies : go_types track_schema /\ passes track_schema any_params /\ dense track_schema any_params /\ no_packed_arrays track_schema /\
  limited track_schema any_params (2 ^ 31 - 1) /\
  UnmarshalZserio track_schema 2 1 [] track_input = (mkR 112 [], Ok track_value) /\
  object_requests track_schema 2 1 [] track_input = [2; 3; 1; 2; 2] /\ slices track_value = 8.
Proof.
  split; [|split; [|split; [|split; [|split; [|split; [|split]]]]]].
  - split.
    + intros id t H. destruct id as [|[|id]]; try discriminate. destruct id; discriminate.
    + intros id d f t Hd Hf Ht. destruct id as [|[|id]]; [injection Hd as <- ..|destruct id; discriminate];
        [destruct Hf as [<-|[<-|[]]]|destruct Hf as [<-|[<-|[<-|[]]]]]; try discriminate; injection Ht as <-; cbn; unfold go_width; lia || exact I.
  - intros id d i f id' args j ps E ps' _ _ _ _ _ _. exact I.
  - intros id d i f len packed ps E Hd Hi _ _ Ha. destruct id as [|[|id]]; [injection Hd as <- ..|destruct id; discriminate]; cbn [fields_of] in Hi;
      destruct i as [|[|[|i]]]; try discriminate Hi; try (destruct i; discriminate); injection Hi as <-; try discriminate; cbn [f_type]; [|exact I].
    intros fuel j ps' r r' v _ H. exact (point_takes _ _ _ _ _ H).
  - exact track_plain.
  - intros id d i f l packed ps E n Hd Hi _ HV Ha El. destruct id as [|[|id]]; [injection Hd as <- ..|destruct id; discriminate]; cbn [fields_of] in Hi;
      destruct i as [|[|[|i]]]; try discriminate Hi; try (destruct i; discriminate); injection Hi as <-; try discriminate. injection Ha as <- _.
    destruct HV as (k & done & HF & ->). cbn [firstn] in HF. inversion HF as [|f0 s0 l0 l1 H0 H1]; subst. inversion H1; subst. cbn in El.
    destruct s0 as [[z| | | | |]|]; try discriminate. injection El as <-. cbn in H0. destruct H0 as (e & He & Hr). injection He as ->. unfold i64. rewrite to_s_small; cbn; unfold in_u in Hr; cbn in Hr; lia.
  - vm_compute. reflexivity.
  - vm_compute. reflexivity.
  - vm_compute. reflexivity.
Qed.

(** ** The conditions are needed *)

(** Five bytes that are no string make its reader ask for two gigabytes. *)
Theorem C107_string_refuted : exists bytes, length bytes = 5%nat /\
  let r := mkR 0 (concat (map (bits_of 8) bytes)) in
  object_requests [DStruct [plain_field (TBasic (Std BString))]] 1 0 [] r = [2 ^ 31 - 1] /\
  snd (UnmarshalZserio [DStruct [plain_field (TBasic (Std BString))]] 1 0 [] r) = Err EOF.
Proof. exists [131; 255; 255; 255; 255]. vm_compute. auto. Qed.
Print Assumptions C107_string_refuted.

(** struct Long { uint64 n; uint8 x[n]; }: eight bytes ask for 2^63-1 elements.
    (make panics: this size is out of range.) *)
Definition long_schema : schema :=
  [DStruct [plain_field (TBasic (Std (BBits (GU 64) 64))); mkF (TBasic (Std (BBits (GU 8) 8))) (Some (Some (slot_int 0), false)) false None 0 false]].
Lemma first_request : forall {A N} (K : elemops A N) q cfg r, a_auto cfg = false -> exists rest, array_requests K q cfg r = a_fixed cfg :: rest.
Proof. intros A N K q cfg r H. unfold array_requests, after, none, array_size. rewrite H. cbn [app]. unfold rret. eexists. reflexivity. Qed.
Theorem C107_explicit_refuted : exists bytes, length bytes = 8%nat /\
  In (2 ^ 63 - 1) (object_requests long_schema 1 0 [] (mkR 0 (concat (map (bits_of 8) bytes)))).
Proof.
  exists [127; 255; 255; 255; 255; 255; 255; 255]. split; [reflexivity|]. set (r := mkR 0 _).
  cbn [object_requests]. unfold of_def. cbn [nth_error long_schema def_requests fields_requests]. cbv zeta. unfold after at 1. apply in_or_app. right.
  assert (R : read_field (run long_schema 0) (mkE [] ([] ++ repeat None (length [plain_field (TBasic (Std (BBits (GU 64) 64))); mkF (TBasic (Std (BBits (GU 8) 8))) (Some (Some (slot_int 0), false)) false None 0 false])))
    (plain_field (TBasic (Std (BBits (GU 64) 64)))) r = (mkR 64 [], Ok (Some (VInt (2 ^ 63 - 1))))) by (vm_compute; reflexivity).
  fold long_schema. rewrite R. unfold after at 1. apply in_or_app. left. clear R r.
  set (E := mkE _ _). unfold field_requests. cbn [included f_clause f_align f_optional]. unfold after at 1, none. cbn [app ralign_opt]. unfold content_requests. cbn [f_array]. unfold field_array_requests. cbn [f_type codec_of].
  assert (C : array_config E (Some (slot_int 0)) false = Some (mkA false false (2 ^ 63 - 1) false false)) by (vm_compute; reflexivity). 
  rewrite C. unfold after at 1. apply in_or_app. left.
  match goal with |- In _ (array_requests ?K ?q ?cfg ?r) => destruct (first_request K q cfg r eq_refl) as [rest ->] end. now left.
Qed.
Print Assumptions C107_explicit_refuted.

(** struct Empty {}; struct Many { Empty x[]; }: an input of at most five bytes is read
    and asks for any number of elements up to 2^31-1. *)
Definition many_schema : schema := [DStruct []; DStruct [mkF (TRef 0 no_args) (Some (None, false)) false None 0 false]].
Theorem C107_empty_refuted : forall n, 0 <= n <= 2 ^ 31 - 1 -> exists bits r' v, (length bits <= 40)%nat /\
  UnmarshalZserio many_schema 2 1 [] (mkR 0 bits) = (r', Ok v) /\ n <= total (object_requests many_schema 2 1 [] (mkR 0 bits)).
Proof.
  intros n Hn. destruct (varsize_short n Hn) as (len & Hl & _ & Hr). specialize (Hr 0%nat []). rewrite app_nil_r in Hr. exists len.
  assert (Np : no_packed_arrays many_schema).
  { intros id d f Hd Hf [l Hp]. destruct id as [|[|id]]; [injection Hd as <- ..|destruct id; discriminate]; cbn in Hf; [contradiction|destruct Hf as [<-|[]]; discriminate]. }
  assert (G : forall k i ctx r, exists es, read_elems (object_ops (run many_schema 1) (mkE [] [None]) 0 no_args) (mkA true false 0 false false) i k (ctx, r) = ((ctx, r), Ok es) /\ length es = k).
  { induction k as [|k IH]; intros i ctx r; [exists []; split; reflexivity|]. destruct (IH (Datatypes.S i) ctx r) as (es & He & Le). exists (VRec 0 [] :: es). split; [|cbn; lia].
    cbn [read_elems]. unfold read_elem. cbn [a_packed a_check]. unfold sbind, on_stream, sret. cbn [object_ops k_read no_args]. 
    change (m_unmarshal (run many_schema 1) 0 [] r) with (r, @Ok value (VRec 0 [])). cbv iota beta. rewrite He. reflexivity. }
  assert (U : exists v, UnmarshalZserio many_schema 2 1 [] (mkR 0 len) = (mkR (0 + length len) [], Ok v) /\ n <= slices v).
  { unfold UnmarshalZserio. change (m_unmarshal (run many_schema 2) 1 []) with (unmarshal_def (run many_schema 1) (DStruct [mkF (TRef 0 no_args) (Some (None, false)) false None 0 false]) []).
    cbn [unmarshal_def read_fields length repeat app]. unfold read_field, read_content, read_field_array. cbn [included f_clause f_align f_optional f_array f_type array_config]. change (ralign_opt 0) with (rret tt).
    unfold read_array, with_ctx, array_unmarshal. cbn [a_auto a_packed a_fixed]. unfold rbind, sbind, on_stream, rret, sret. cbv iota beta. rewrite Hr.
    assert (V : i64 n = n) by (apply to_s_small; cbn; lia). rewrite V. destruct (n <? 0) eqn:N0; [lia|].
    destruct (n =? 0) eqn:N1; [eexists; split; [reflexivity|cbn; lia]|].
    destruct (G (Z.to_nat n) 0%nat None (mkR (0 + length len) [])) as (es & He & Le). rewrite He. eexists. split; [reflexivity|].
    rewrite slices_rec. cbn [slot_slices app]. rewrite slices_arr. pose proof (slices_pos (VArr es)) as P. assert (Q : 0 <= elem_slices es) by (clear; induction es as [|x es IH]; cbn [elem_slices]; [lia|]; pose proof (slices_pos x); lia). lia. }
  destruct U as (v & U & Sv). exists (mkR (0 + length len) []), v. split; [exact Hl|]. split; [exact U|]. pose proof (C107_least many_schema 2 1 [] _ _ _ Np U). lia.
Qed.
Print Assumptions C107_empty_refuted.
