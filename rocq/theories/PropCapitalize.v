(** Properties of the names of fields in Go and in JSON. *)

Require Import ZArith String List Bool Arith Lia Permutation.
From Verif Require Import Members Capitalize CapitalizeSpec CapitalizeFacts.
Import ListNotations.
Open Scope string_scope.

(** ** C94 *)

(** Fields of types that are no templates have their own name in JSON. *)
Theorem C94_declared : forall h0 cs0 qs h cs order c p f, parsed (h0, cs0) -> instantiate_all (h0, cs0) qs = Some (h, cs) -> Permutation order cs ->
  In c cs0 -> c_templates c = [] -> In p (c_fields c) -> nth_error h0 p = Some f -> letter_first (f_name f) ->
  exists f', nth_error (CapitalizeNames h order) p = Some f' /\ f_name f' = title (f_name f) /\ json_key f' = Some (f_name f).
Proof. exact declared_json. Qed.
Print Assumptions C94_declared.

(** Fields of instances of templates only if their type depends on the template
    parameters or is an instance, too. *)
Theorem C94_instances : forall h0 cs0 qs h cs order i, parsed (h0, cs0) -> instantiate_all (h0, cs0) qs = Some (h, cs) -> Permutation order cs ->
  In i cs -> ~ In i cs0 ->
  exists c, In c cs0 /\ c_templates c <> [] /\
    Forall2 (fun p p' => exists f f', nth_error h0 p = Some f /\ nth_error (CapitalizeNames h order) p' = Some f' /\ f_name f' = title (f_name f) /\
      (letter_first (f_name f) ->
        (depends (c_templates c) f -> json_key f' = Some (f_name f)) /\ (~ depends (c_templates c) f -> json_key f' = Some (title (f_name f)))))
      (c_fields c) (c_fields i).
Proof. exact instance_json. Qed.
Print Assumptions C94_instances.

(** The field of the default case of a choice has its Go name in JSON. *)
Theorem C94_default : forall h0 cs0 qs h cs order c p, parsed (h0, cs0) -> instantiate_all (h0, cs0) qs = Some (h, cs) -> Permutation order cs ->
  In c cs -> c_default c = Some p ->
  exists f f', nth_error h p = Some f /\ nth_error (CapitalizeNames h order) p = Some f' /\ f_name f' = title (f_name f) /\
    (letter_first (f_name f) -> json_key f' = Some (title (f_name f))).
Proof. exact default_json. Qed.
Print Assumptions C94_default.

(** ** An example *)

(** struct Box<T> { uint8 count; T value; }, choice Pick { case: uint8 small; default:
    uint8 other; } and struct Use { Box<uint8> box; uint8 last; } *)
Definition u8 := mkFT true "" "uint8" [].
Definition heap0 : heap := [mkF "count" "" u8; mkF "value" "" (mkFT false "" "T" []); mkF "small" "" u8; mkF "other" "" u8; mkF "last" "" u8].
Definition box := mkC ("p", "Box") ["T"] [0%nat; 1%nat] None.
Definition pick := mkC ("p", "Pick") [] [2%nat] (Some 3%nat).
Definition use := mkC ("p", "Use") [] [4%nat] None.
Definition wanted := mkR 0 [u8] ("p", "BoxUint8") (fun t => t).
Definition instance := mkC ("p", "BoxUint8") [] [0%nat; 5%nat] None.

Lemma example_parsed : parsed (heap0, [box; pick; use]).
Proof.
  split; [|split].
  - cbn. repeat constructor; cbn; intuition discriminate.
  - intros c p Hc Hp. cbn in Hc. destruct Hc as [<-|[<-|[<-|[]]]]; cbn in *; lia.
  - intros f Hf. cbn in Hf. repeat (destruct Hf as [<-|Hf]; [reflexivity|]). destruct Hf.
Qed.

Example C94_applies :
  parsed (heap0, [box; pick; use]) /\
  exists h, instantiate_all (heap0, [box; pick; use]) [wanted] = Some (h, [box; pick; use; instance]) /\
    In instance [box; pick; use; instance] /\ ~ In instance [box; pick; use] /\
    map (fun p => option_map json_key (nth_error (CapitalizeNames h [use; instance; box; pick]) p)) (c_fields instance) = [Some (Some "Count"); Some (Some "value")] /\
    map (fun p => option_map json_key (nth_error (CapitalizeNames h [use; instance; box; pick]) p)) (pointers pick) = [Some (Some "small"); Some (Some "Other")].
Proof.
  split; [exact example_parsed|]. eexists. split; [reflexivity|]. split; [cbn; tauto|]. split; [intros [H|[H|[H|[]]]]; discriminate H|].
  split; reflexivity.
Qed.

(** So the name in JSON is not always that of the schema. *)
Theorem C94_schema_refuted : exists h0 cs0 qs h cs i p f f', parsed (h0, cs0) /\ instantiate_all (h0, cs0) qs = Some (h, cs) /\ In i cs /\ In p (c_fields i) /\
  nth_error h p = Some f /\ letter_first (f_name f) /\ nth_error (CapitalizeNames h cs) p = Some f' /\ json_key f' <> Some (f_name f).
Proof.
  exists heap0, [box; pick; use], [wanted]. do 2 eexists. exists instance, 0%nat. do 2 eexists. split; [exact example_parsed|]. split; [reflexivity|].
  split; [cbn; tauto|]. split; [now left|]. split; [reflexivity|]. split; [cbn; lia|]. split; [reflexivity|]. discriminate.
Qed.
Print Assumptions C94_schema_refuted.
