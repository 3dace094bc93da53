(** A schema that uses most features, to show that the theorems about generated
    types apply to something.

    <<
    enum uint8 Kind { ... };
    struct Point { varint32 x; uint16 y; optional int8 z; };
    choice Payload(Kind kind) on kind { case 1: case 2: uint8 small; case 3: ; default: string text; };
    struct Message {
      uint8 n; Kind kind; optional string name; bit<n> flags if kind == 1;
      align(8): packed Point points[]; Payload(kind) payload; uint16 data[n]; optional Message next;
    };
    union Any { uint8 number; Message message; };
    >> *)

Require Import ZArith List Bool Lia ZifyBool ZifyNat.
From Verif Require Import Bits Stream Spec PosSpec Scalars Traits TraitSpec Delta Array ArraySpec Schema SchemaSpec.
Import ListNotations.
Open Scope Z_scope.

Definition plain_field (t : ftype) : field := mkF t None false None 0 false.
Definition optional_field (t : ftype) : field := mkF t None true None 0 false.
Definition uint8_t : ftype := TBasic (Std (BBits (GU 8) 8)).
Definition uint16_t : ftype := TBasic (Std (BBits (GU 16) 16)).
Definition int8_t : ftype := TBasic (Std (BSBits (GS 8) 8)).

(** The value of a preceding integer field. *)
Definition slot_int (i : nat) : expr := fun E =>
  match nth_slot i (e_slots E) with Some (VInt z) => Some z | _ => None end.
Definition no_args : arguments := fun _ _ => Some [].

Definition Kind := 0%nat. Definition Point := 1%nat. Definition Payload := 2%nat.
Definition Message := 3%nat. Definition Any := 4%nat.

Definition ex_schema : schema := [
  DScalar (Std (BBits (GU 8) 8));
  DStruct [plain_field (TBasic (Std BVarint32)); plain_field uint16_t; optional_field int8_t];
  DChoice (fun ps => match ps with VInt z :: _ => Some z | _ => None end)
    [([1; 2], Some (plain_field uint8_t)); ([3], None)] (Some (plain_field (TBasic (Std BString))));
  DStruct [
    plain_field uint8_t;
    plain_field (TRef Kind no_args);
    optional_field (TBasic (Std BString));
    mkF (TBasic (Bits false (GU 64) (slot_int 0))) None false
      (Some (fun E => match slot_int 1 E with Some k => Some (k =? 1) | None => None end)) 0 false;
    mkF (TRef Point no_args) (Some (None, true)) false None 8 false;
    plain_field (TRef Payload (fun E _ => match slot_int 1 E with Some k => Some [VInt k] | None => None end));
    mkF uint16_t (Some (Some (slot_int 0), false)) false None 0 false;
    optional_field (TRef Message no_args)];
  DUnion [plain_field uint8_t; plain_field (TRef Message no_args)]
].

Lemma nth_slot_before : forall i j slots, (j < i)%nat -> (i < length slots)%nat -> nth_slot j (before i slots) = nth_slot j slots.
Proof.
  intros i j slots H Hi. unfold nth_slot, before. rewrite app_nth1 by (rewrite firstn_length; lia).
  revert j slots H Hi. induction i as [|i IH]; intros j slots H Hi; [lia|]. destruct slots as [|s slots]; [cbn in Hi; lia|].
  destruct j as [|j]; [reflexivity|]. cbn. apply IH; cbn in Hi; lia.
Qed.
Lemma slot_int_before : forall i j ps slots, (j < i)%nat -> (i < length slots)%nat ->
  slot_int j (mkE ps (before i slots)) = slot_int j (mkE ps slots).
Proof. intros. unfold slot_int. cbn [e_slots]. now rewrite nth_slot_before. Qed.

Ltac causal_field :=
  let ps := fresh in let slots := fresh in let H := fresh in
  intros ps slots H; unfold agree, included; cbn [f_clause f_type f_array same_type plain_field optional_field uint8_t uint16_t int8_t];
  repeat split; intros; rewrite ?slot_int_before by lia; reflexivity.

Lemma ex_causal : causal ex_schema.
Proof.
  intros id d i f Hd Hf. unfold ex_schema in Hd.
  do 5 (destruct id as [|id]; [injection Hd as <-;
    cbn [fields_of choice_fields flat_map snd app] in Hf;
    do 8 (destruct i as [|i]; [try discriminate Hf; injection Hf as <-; causal_field|]);
    (destruct i; discriminate) |]).
  destruct id; discriminate.
Qed.

Definition point (x y : Z) (z : option value) : value := VRec 0 [Some (VInt x); Some (VInt y); z].
Definition leaf : value := VRec 0 [
  Some (VInt 2); Some (VInt 7); None; None; Some (VArr []);
  Some (VRec 0 [None; Some (VStr [104; 105])]); Some (VArr [VInt 65535; VInt 0]); None].
Definition message : value := VRec 0 [
  Some (VInt 3); Some (VInt 1); Some (VStr [97]); Some (VInt 5);
  Some (VArr [point (-1000) 10 None; point (-998) 12 (Some (VInt (-1))); point (-996) 14 None; point (-994) 16 (Some (VInt 1));
              point (-992) 18 None; point (-990) 20 None]);
  Some (VRec 0 [Some (VInt 200); None]); Some (VArr [VInt 1; VInt 2; VInt 3]); Some leaf].

Ltac basic_value :=
  eexists _, _; split; [reflexivity|]; split; [|split; [|reflexivity]];
  [cbn; unfold go_width; try lia; try exact I | cbn; unfold MaxVarint32, MaxVarsize, is_byte; try lia].

(** Fields are stored or not by computation. *)
Ltac valid_slots i f H :=
  repeat (destruct i as [|i]; [try discriminate H; injection H as <-; (split; [cbn; lia|]); eexists; (split; [reflexivity|]); cbn iota beta|
                                try (destruct i; discriminate H)]).

Lemma valid_struct : forall S n pk id ps slots fs, nth_error S id = Some (DStruct fs) -> length slots = length fs ->
  (forall i f, nth_error fs i = Some f -> valid_field (valid S n) (finite S n) pk (mkE ps slots) f (nth_slot i slots)) ->
  valid S (Datatypes.S n) pk id ps (VRec 0 slots).
Proof. intros S n pk id ps slots fs Hd Hl Hf. cbn [valid]. exists (DStruct fs). split; [exact Hd|]. exists slots.
  split; [reflexivity|]. split; [exact Hl|exact Hf].
Qed.

Lemma valid_point : forall n pk x y, -2 ^ 28 < x < 2 ^ 28 -> 0 <= y < 2 ^ 16 -> valid ex_schema (S n) pk Point [] (point x y None).
Proof.
  intros n pk x y Hx Hy. cbn [valid]. eexists. split; [reflexivity|]. eexists. split; [reflexivity|]. split; [reflexivity|].
  intros i f Hi. valid_slots i f Hi.
  - unfold valid_content. cbn. split; [|intros; exact I]. basic_value.
  - unfold valid_content. cbn. split; [|intros; exact I]. basic_value.
  - reflexivity.
Qed.
Lemma valid_point_z : forall n pk x y z, -2 ^ 28 < x < 2 ^ 28 -> 0 <= y < 2 ^ 16 -> -128 <= z < 128 ->
  valid ex_schema (S n) pk Point [] (point x y (Some (VInt z))).
Proof.
  intros n pk x y z Hx Hy Hz. cbn [valid]. eexists. split; [reflexivity|]. eexists. split; [reflexivity|]. split; [reflexivity|].
  intros i f Hi. valid_slots i f Hi; unfold valid_content; cbn; (split; [|intros; exact I]); basic_value.
Qed.

Lemma finite_point : forall n, finite ex_schema (S n) Point.
Proof.
  intros n. cbn [finite]. eexists. split; [reflexivity|]. intros f Hf Ha.
  cbn in Hf. destruct Hf as [<-|[<-|[<-|[]]]]; exact I.
Qed.

Lemma valid_leaf : forall n, valid ex_schema (S (S n)) false Message [] leaf.
Proof.
  intros n. cbn [valid]. eexists. split; [reflexivity|]. eexists. split; [reflexivity|]. split; [reflexivity|].
  intros i f Hi. unfold leaf. valid_slots i f Hi.
  - unfold valid_content. cbn. split; [|intros; exact I]. basic_value.
  - unfold valid_content. cbn. exists []. split; [reflexivity|]. eexists. split; [reflexivity|]. split; [|discriminate]. basic_value.
  - reflexivity.
  - reflexivity.
  - unfold valid_content. cbn. exists []. split; [reflexivity|]. split; [vm_compute; discriminate|]. split.
    + intros [|j] e He; discriminate He.
    + intros _. now apply finite_point.
  - unfold valid_content. cbn. exists [VInt 7]. split; [reflexivity|]. eexists. split; [reflexivity|].
    exists [None; Some (VStr [104; 105])], 7. split; [reflexivity|]. split; [reflexivity|]. split; [reflexivity|].
    split; [discriminate|]. cbn [select Z.eqb]. split.
    + intros [|[|j]] Hj; [reflexivity|now destruct Hj|now destruct j].
    + split; [cbn; lia|]. exists true. split; [reflexivity|]. unfold valid_content. cbn. split; [|discriminate].
      eexists _, _; split; [reflexivity|]; split; [exact I|]; split; [|reflexivity]. cbn. unfold MaxVarsize, is_byte. split; [repeat (apply Forall_cons; [unfold is_byte; lia|]); apply Forall_nil|vm_compute; discriminate].
  - unfold valid_content. cbn. exists [VInt 65535; VInt 0]. split; [reflexivity|]. split; [exists 2; split; reflexivity|].
    split; [exact I|]. split; [discriminate|]. split; [|discriminate]. repeat constructor; basic_value.
  - reflexivity.
Qed.

Lemma valid_message : forall n, valid ex_schema (S (S (S n))) false Message [] message.
Proof.
  intros n. unfold message. eapply valid_struct; [reflexivity|reflexivity|].
  intros i f Hi. valid_slots i f Hi.
  - unfold valid_content. cbn. split; [|intros; exact I]. basic_value.
  - unfold valid_content. cbn. exists []. split; [reflexivity|]. eexists. split; [reflexivity|]. split; [|discriminate]. basic_value.
  - unfold valid_content. cbn. split; [|discriminate].
    eexists _, _; split; [reflexivity|]; split; [exact I|]; split; [|reflexivity]. cbn. unfold MaxVarsize, is_byte. split; [repeat (apply Forall_cons; [unfold is_byte; lia|]); apply Forall_nil|vm_compute; discriminate].
  - unfold valid_content. cbn. split; [|discriminate].
    eexists _, _; split; [reflexivity|]; split; [cbn; unfold go_width, to_u; cbn; lia|]; split; [|reflexivity]. cbn. unfold to_u. cbn. lia.
  - unfold valid_content. cbn [f_array f_type]. eexists. split; [reflexivity|]. split; [vm_compute; discriminate|]. split.
    + intros j e He. exists []. split; [reflexivity|].
      do 6 (destruct j as [|j]; [injection He as <-; (apply valid_point || apply valid_point_z); lia|]). destruct j; discriminate.
    + intros _. now apply finite_point.
  - unfold valid_content. cbn. exists [VInt 1]. split; [reflexivity|]. eexists. split; [reflexivity|].
    exists [Some (VInt 200); None], 1. split; [reflexivity|]. split; [reflexivity|]. split; [reflexivity|].
    split; [discriminate|]. cbn [select Z.eqb Pos.eqb]. split.
    + intros [|[|j]] Hj; [now destruct Hj|reflexivity|now destruct j].
    + split; [cbn; lia|]. exists true. split; [reflexivity|]. unfold valid_content. cbn. split; [|discriminate]. basic_value.
  - unfold valid_content. cbn. exists [VInt 1; VInt 2; VInt 3]. split; [reflexivity|]. split; [exists 3; split; reflexivity|].
    split; [exact I|]. split; [discriminate|]. split; [|discriminate]. repeat constructor; basic_value.
  - unfold valid_content. cbn [f_array f_type optional_field]. exists []. split; [reflexivity|]. now apply valid_leaf.
Qed.

Lemma valid_any : forall n, valid ex_schema (S (S (S (S n)))) false Any [] (VRec 2 [None; Some message]).
Proof.
  intros n. pose proof (valid_message n) as Hm. remember (S (S (S n))) as k. cbn [valid]. eexists. split; [reflexivity|].
  split; [reflexivity|]. eexists 2, _. split; [reflexivity|]. split; [reflexivity|].
  split; [unfold MaxVarsize; lia|]. cbn -[message]. split.
  - intros [|[|j]] Hj; [reflexivity|now destruct Hj|now destruct j].
  - split; [cbn; lia|]. exists true. split; [reflexivity|]. unfold valid_content. cbn [f_array f_type plain_field]. exists []. split; [reflexivity|].
    exact Hm.
Qed.
