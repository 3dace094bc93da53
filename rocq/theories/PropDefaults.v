(** Properties of LoadDefaultValues. *)

Require Import ZArith List Bool Lia.
From Verif Require Import Bits Stream Scalars Marshal Traits Delta Array Schema Defaults DefaultsSpec DefaultsFacts.
Import ListNotations.
Open Scope Z_scope.

(** ** C92 *)

(** Mandatory fields of builtin types get their initialiser, at any depth. *)
Theorem C92_set : forall Sc I fuel id v v' path f id' i x, LoadDefaultValues Sc I fuel id v = Some v' ->
  reaches Sc id path f id' i -> settable f -> I id' i = Some x -> get path (Some v') = Some x.
Proof. exact defaults_set. Qed.
Print Assumptions C92_set.

(** All other fields keep what they have, and so do the tags of unions. *)
Theorem C92_kept : forall Sc I fuel id v v' path f id' i, LoadDefaultValues Sc I fuel id v = Some v' ->
  reaches Sc id path f id' i -> ~ (settable f /\ I id' i <> None) -> ~ entered Sc f -> get path (Some v') = get path (Some v).
Proof. exact defaults_kept. Qed.
Print Assumptions C92_kept.

Theorem C92_union : forall Sc I fuel id v v', LoadDefaultValues Sc I fuel id v = Some v' ->
  union_choice (Some v') = union_choice (Some v) /\
  forall path f id' i, reaches Sc id path f id' i -> entered Sc f -> union_choice (get path (Some v')) = union_choice (get path (Some v)).
Proof. exact defaults_union. Qed.
Print Assumptions C92_union.

(** Doing it again changes nothing. *)
Theorem C92_again : forall Sc I fuel id v v', LoadDefaultValues Sc I fuel id v = Some v' -> LoadDefaultValues Sc I fuel id v' = Some v'.
Proof. exact defaults_again. Qed.
Print Assumptions C92_again.

(** It always ends, without an error. *)
Theorem C92_total : forall Sc I rank id v, ranked Sc rank -> nth_error Sc id <> None -> typed Sc id (Some v) ->
  exists v', LoadDefaultValues Sc I (S (rank id)) id v = Some v'.
Proof. exact defaults_total. Qed.
Print Assumptions C92_total.

(** An enum, a point with the defaults 1 and none, and a shape with an enum field,
    a point, an optional number, an array and a union of a number and a point. *)
Definition plain_field (t : ftype) : field := mkF t None false None 0 false.
Definition ref (id : nat) : ftype := TRef id (fun _ _ => Some []).
Definition ex_schema : schema := [
  DScalar (Std BUint8);
  DStruct [plain_field (TBasic (Std BUint8)); plain_field (TBasic (Std BUint8))];
  DStruct [plain_field (ref 0); plain_field (ref 1); mkF (TBasic (Std BUint8)) None true None 0 false;
           mkF (TBasic (Std BUint8)) (Some (None, false)) false None 0 false; plain_field (ref 3)];
  DUnion [plain_field (TBasic (Std BUint8)); plain_field (ref 1)]].
Definition ex_inits : initialisers := fun id i =>
  match id, i with
  | 1%nat, 0%nat => Some (VInt 1)
  | 2%nat, 0%nat => Some (VInt 2)
  | 2%nat, 2%nat => Some (VInt 3)
  | 2%nat, 3%nat => Some (VInt 4)
  | 3%nat, 0%nat => Some (VInt 5)
  | _, _ => None
  end.
Definition ex_shape : value := VRec 0 [Some (VInt 9); None; None; Some (VArr [VInt 7]); Some (VRec 2 [None; Some (VRec 0 [Some (VInt 8); Some (VInt 6)])])].
Definition ex_loaded : value :=
  VRec 0 [Some (VInt 9); Some (VRec 0 [Some (VInt 1); None]); None; Some (VArr [VInt 7]); Some (VRec 2 [Some (VInt 5); Some (VRec 0 [Some (VInt 1); Some (VInt 6)])])].

Definition ex_rank (id : nat) : nat := match id with 0%nat => 0 | 1%nat => 0 | 2%nat => 2 | _ => 1 end.

Example C92_applies : LoadDefaultValues ex_schema ex_inits 3 2 ex_shape = Some ex_loaded /\
  reaches ex_schema 2 [4%nat; 1%nat; 0%nat] (plain_field (TBasic (Std BUint8))) 1 0 /\ settable (plain_field (TBasic (Std BUint8))) /\
  ex_inits 1%nat 0%nat = Some (VInt 1) /\ ranked ex_schema ex_rank /\ typed ex_schema 2 (Some ex_shape).
Proof.
  assert (Hm : forall t, mandatory (plain_field t)) by (intro t; split; reflexivity).
  refine (conj _ (conj _ (conj _ (conj eq_refl (conj _ _))))).
  - reflexivity.
  - eapply There; [reflexivity|reflexivity|apply Hm|reflexivity|]. eapply There; [reflexivity|reflexivity|apply Hm|reflexivity|]. eapply Here; reflexivity.
  - split; [apply Hm|]. now eexists.
  - intros id d g id1 args Hd Hg Hmg Ht.
    destruct id as [|[|[|[|id]]]]; cbn in Hd; [..|destruct id; discriminate]; injection Hd as <-; cbn in Hg;
      repeat (match type of Hg with _ \/ _ => destruct Hg as [<-|Hg] | False => destruct Hg end); cbn in Ht; try discriminate Ht; injection Ht as <- _; cbn; (split; [lia|discriminate]).
  - eapply TRecord; [reflexivity|discriminate|]. intros i g id1 args Hg Hmg Ht.
    destruct i as [|[|[|[|[|i]]]]]; cbn in Hg; [..|destruct i; discriminate]; injection Hg as <-; cbn in Ht; try discriminate Ht; injection Ht as <- _; cbn [nth].
    + eapply TScalar. reflexivity.
    + constructor.
    + eapply TRecord; [reflexivity|discriminate|]. intros i g id1 args0 Hg _ Ht. destruct i as [|[|i]]; cbn in Hg; [..|destruct i; discriminate]; injection Hg as <-; cbn in Ht; try discriminate Ht.
      injection Ht as <- _. cbn [nth]. eapply TRecord; [reflexivity|discriminate|]. intros i g id1 args1 Hg _ Ht. destruct i as [|[|i]]; cbn in Hg; [..|destruct i; discriminate]; injection Hg as <-; cbn in Ht; discriminate Ht.
Qed.

(** But not all fields with an initialiser get it: not those of enums, optional
    fields and arrays. *)
Theorem C92_all_refuted : exists Sc I id v v', LoadDefaultValues Sc I 3 id v = Some v' /\
  (exists path f id' i x t, reaches Sc id path f id' i /\ mandatory f /\ f_type f = ref t /\ nth_error Sc t = Some (DScalar (Std BUint8)) /\ I id' i = Some x /\ get path (Some v') <> Some x) /\
  (exists path f id' i x, reaches Sc id path f id' i /\ f_optional f = true /\ I id' i = Some x /\ get path (Some v') <> Some x) /\
  (exists path f id' i x, reaches Sc id path f id' i /\ f_array f <> None /\ I id' i = Some x /\ get path (Some v') <> Some x).
Proof.
  exists ex_schema, ex_inits, 2%nat, ex_shape, ex_loaded. refine (conj eq_refl (conj _ (conj _ _))).
  - exists [0%nat], (plain_field (ref 0)), 2%nat, 0%nat, (VInt 2), 0%nat. repeat split; [eapply Here; reflexivity|discriminate].
  - exists [2%nat], (mkF (TBasic (Std BUint8)) None true None 0 false), 2%nat, 2%nat, (VInt 3). repeat split; [eapply Here; reflexivity|discriminate].
  - exists [3%nat], (mkF (TBasic (Std BUint8)) (Some (None, false)) false None 0 false), 2%nat, 3%nat, (VInt 4). repeat split; [eapply Here; reflexivity|discriminate|discriminate].
Qed.
Print Assumptions C92_all_refuted.
