(** Properties of the pass that resolves all type references. *)

Require Import ZArith String List Bool Lia.
From Verif Require Import Packages PackagesSpec Resolve ResolveSpec ResolveFacts.
From Verif Require PackagesFacts.
Import ListNotations.
Open Scope Z_scope.

(** ** C93 *)

(** References become what they mean, except at the forgotten places, where they
    stay as they are. *)
Theorem C93_resolved : forall w ms ms', ResolveTypes w ms = Some ms' -> (forall m, In m ms -> well_formed w (fst m)) ->
  Forall2 (fun m m' => fst m' = fst m /\ forall x,
    (~ forgotten x -> Forall2 (becomes w (fst m)) (references x (snd m)) (references x (snd m'))) /\
    (forgotten x -> references x (snd m') = references x (snd m))) ms ms'.
Proof. exact pass_places. Qed.
Print Assumptions C93_resolved.

(** A reference that means something, and is not a template parameter, has a
    package that declares the type. *)
Theorem C93_known : forall w p a b, becomes w p a b -> In p w -> tr_builtin (head (snd a)) = false ->
  ~ (tr_package (head (snd a)) = ""%string /\ In (tr_name (head (snd a))) (fst a)) ->
  tr_name (head (snd b)) = tr_name (head (snd a)) /\
  exists q s, In q w /\ p_name q = tr_package (head (snd b)) /\ declares q (tr_name (head (snd b))) s.
Proof. exact becomes_known. Qed.
Print Assumptions C93_known.

(** In the generated code it is the name of the type, with the package that declares it
    unless that is the package itself. *)
Theorem C93_text : forall w p a b, becomes w p a b -> well_formed w p -> tr_builtin (head (snd a)) = false ->
  ~ (tr_package (head (snd a)) = ""%string /\ In (tr_name (head (snd a))) (fst a)) ->
  exists q s, In q w /\ declares q (tr_name (head (snd a))) s /\
    ((q = p /\ GoTypeOfReference p (head (snd b)) = Some (None, tr_name (head (snd a)))) \/
     (q <> p /\ GoTypeOfReference p (head (snd b)) = Some (Some (p_name q), tr_name (head (snd a))))).
Proof.
  intros w p a b H (N & E & I & _) B T. destruct (C93_known w p a b H I B T) as (Hn & q & s & Iq & Hq & D). rewrite Hn in D. exists q, s. split; [exact Iq|]. split; [exact D|].
  unfold GoTypeOfReference. rewrite <- Hq, Hn. rewrite (proj2 (String.eqb_neq (p_name q) "") (E q Iq)). destruct (String.eqb_spec (p_name q) (p_name p)) as [Q|Q].
  - left. split; [|reflexivity]. exact (PackagesFacts.same_name w q p N Iq I Q).
  - right. split; [|reflexivity]. congruence.
Qed.
Print Assumptions C93_text.

(** The pass succeeds exactly if all references outside the forgotten places mean
    something. *)
Theorem C93_success : forall w ms, (forall m, In m ms -> well_formed w (fst m)) ->
  (exists ms', ResolveTypes w ms = Some ms') <-> forall m, In m ms -> resolvable w (fst m) (snd m).
Proof. exact pass_total. Qed.
Print Assumptions C93_success.

(** A reference left without a package is an error for the templates. *)
Theorem C93_left : forall w p t fuel, tr_builtin t = false -> tr_package t = ""%string ->
  GoTypeOfReference p t = None /\ GetOriginalType (S fuel) w p t = Unknown.
Proof. intros w p t fuel Hb Ht. split; [exact (unresolved_text p t Ht)|exact (unresolved_original fuel w p t Hb Ht)]. Qed.
Print Assumptions C93_left.

(** In a package without a name, no type of the package can be used. *)
Theorem C93_unnamed : forall w p templates t args s, p_name p = ""%string -> tr_builtin t = false -> tr_package t = ""%string ->
  declares p (tr_name t) s -> resolve w p templates (Ref t args) = None.
Proof. exact unnamed_fails. Qed.
Print Assumptions C93_unnamed.

(** ** An example *)

(** Package "a" declares Point and the template Box, and imports Colour from "b";
    "b" declares Colour and a choice whose default field is of the type Colour. *)
Definition pa := mkP "a" [mkI "b" "Colour"] [("Point"%string, SyStruct 0); ("Box"%string, SyStruct 1)] None [] [].
Definition pb := mkP "b" [] [("Colour"%string, SyEnum 0); ("Choice"%string, SyChoice 1)] None [] [].
Definition plain (n : string) : ref := Ref (mkTR false "" n 0) [].
Definition box_of (r : ref) : ref := Ref (mkTR false "" "Box" 0) [r].
Definition byte : ref := Ref (mkTR true "" "uint8" 8) [].

Definition da := mkDs [byte] [mkC [] [] [byte; box_of (plain "Point")] None [plain "Colour"]; mkC ["T"%string] [] [plain "T"; box_of (plain "T")] None []] [] [] [] [] [] [].
Definition db := mkDs [] [] [mkC [] [] [plain "Colour"] (Some (plain "Colour")) []] [] [] [] [] [byte].

Lemma example_formed : forall m, In m [(pa, da); (pb, db)] -> well_formed [pa; pb] (fst m).
Proof.
  assert (Hn : NoDup (map p_name [pa; pb])) by (repeat constructor; cbn; intuition discriminate).
  assert (Hq : forall q, In q [pa; pb] -> p_name q <> ""%string) by (intros q [<-|[<-|[]]]; discriminate).
  intros m [<-|[<-|[]]]; (split; [assumption|]; split; [assumption|]; split; [cbn; tauto|]).
  - intros i [<-|[]]. exists pb. split; [cbn; tauto|reflexivity].
  - intros i [].
Qed.

(** The references get the packages that were meant; the template parameter stays. *)
Example C93_applies :
  (forall m, In m [(pa, da); (pb, db)] -> well_formed [pa; pb] (fst m)) /\
  ResolveTypes [pa; pb] [(pa, da); (pb, db)] =
    Some [(pa, mkDs [byte]
             [mkC [] [] [byte; Ref (mkTR false "a" "Box" 0) [Ref (mkTR false "a" "Point" 0) []]] None [Ref (mkTR false "b" "Colour" 0) []];
              mkC ["T"%string] [] [plain "T"; Ref (mkTR false "a" "Box" 0) [plain "T"]] None []] [] [] [] [] [] []);
          (pb, mkDs [] [] [mkC [] [] [Ref (mkTR false "b" "Colour" 0) []] (Some (plain "Colour")) []] [] [] [] [] [byte])] /\
  ResolveTypes [pa; pb] [(pb, db); (pa, mkDs [plain "Choice"] [] [] [] [] [] [] [])] = None.
Proof. split; [exact example_formed|]. split; reflexivity. Qed.

(** Colour is b.Colour in "a", and Colour in "b". *)
Example C93_text_applies : let colour := ([] : list string, Ref (mkTR false "b" "Colour" 0) []) in
  becomes [pa; pb] pa ([], plain "Colour") colour /\ becomes [pa; pb] pb ([], plain "Colour") colour /\
  GoTypeOfReference pa (head (snd colour)) = Some (Some "b", "Colour")%string /\ GoTypeOfReference pb (head (snd colour)) = Some (None, "Colour")%string.
Proof.
  split; [apply becomes_iff; [apply (example_formed (pa, da)); cbn; tauto|reflexivity]|]. split; [apply becomes_iff; [apply (example_formed (pb, db)); cbn; tauto|reflexivity]|]. split; reflexivity.
Qed.

(** So the pass does not resolve all references: the type of the default field of
    a choice is declared, the pass succeeds, and no text is found for the type. *)
Theorem C93_all_refuted : exists w ms ms' p d d' r, (forall m, In m ms -> well_formed w (fst m)) /\ ResolveTypes w ms = Some ms' /\
  In (p, d) ms /\ In (p, d') ms' /\ references (DefaultFieldType Choice) d = [([], r)] /\ (exists b, becomes w p ([], r) b) /\
  (exists r', references (DefaultFieldType Choice) d' = [([], r')] /\ GoTypeOfReference p (head r') = None).
Proof.
  exists [pa; pb], [(pa, da); (pb, db)]. eexists. exists pb, db. eexists. exists (plain "Colour"). split; [exact example_formed|]. split; [reflexivity|].
  split; [cbn; tauto|]. split; [right; left; reflexivity|]. split; [reflexivity|]. split.
  - exists ([], Ref (mkTR false "b" "Colour" 0) []). apply becomes_iff; [apply (example_formed (pb, db)); cbn; tauto|]. reflexivity.
  - exists (plain "Colour"). split; reflexivity.
Qed.
Print Assumptions C93_all_refuted.
