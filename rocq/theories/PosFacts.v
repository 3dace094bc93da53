(** Composition of position-dependent codecs. *)

Require Import ZArith List Bool Lia ZifyBool ZifyNat.
From Verif Require Import Bits Stream Spec PosSpec StreamFacts StreamThms Delta.
Import ListNotations.
Open Scope nat_scope.

Lemma encodes_pfix : forall m bs, encodes m bs -> encodes_at m (pfix bs).
Proof. intros m bs H w Hw. now apply H. Qed.
Lemma decodes_pfix : forall {A} (m : reader A) bs a, decodes m bs a -> decodes_at m (pfix bs) a.
Proof. intros A m bs a H pos rest. apply H. Qed.
Lemma roundtrips_pfix : forall {A} w (r : reader A) bs a, roundtrips w r bs a -> roundtrips_at w r (pfix bs) a.
Proof. intros A w r bs a [H1 H2]. split; [now apply encodes_pfix|now apply decodes_pfix]. Qed.

Lemma encodes_at_ret : encodes_at (wret tt) pnil.
Proof. intros [b f] H; cbn in *. unfold wret, pnil. subst f. now rewrite app_nil_r. Qed.

Lemma encodes_at_bind : forall m (f : unit -> writer unit) e1 e2,
  encodes_at m e1 -> encodes_at (f tt) e2 -> encodes_at (wbind m f) (papp e1 e2).
Proof.
  intros m f e1 e2 H1 H2 w Hw. unfold wbind. rewrite (H1 w Hw).
  rewrite (H2 (mkW (wbits w ++ e1 (length (wbits w))) []) eq_refl). cbn [wbits]. unfold papp.
  now rewrite app_length, app_assoc.
Qed.

Lemma encodes_at_ext : forall m e1 e2, (forall p, e1 p = e2 p) -> encodes_at m e1 -> encodes_at m e2.
Proof. intros m e1 e2 E H w Hw. rewrite <- E. now apply H. Qed.

Lemma encodes_at_ignore : forall m e, encodes_at m e -> encodes_at (wignore m) e.
Proof. intros m e H w Hw. unfold wignore. now rewrite (H w Hw). Qed.

Lemma decodes_at_ret : forall {A} (a : A), decodes_at (rret a) pnil a.
Proof. intros A a pos rest. unfold rret, pnil. cbn. now rewrite Nat.add_0_r. Qed.

Lemma decodes_at_bind : forall {A B} (m : reader A) (f : A -> reader B) e1 e2 a b,
  decodes_at m e1 a -> decodes_at (f a) e2 b -> decodes_at (rbind m f) (papp e1 e2) b.
Proof.
  intros A B m f e1 e2 a b H1 H2 pos rest. unfold rbind, papp.
  rewrite <- app_assoc, H1, H2. now rewrite app_length, Nat.add_assoc.
Qed.

Lemma decodes_at_map : forall {A B} (m : reader A) (f : A -> reader B) e a b,
  decodes_at m e a -> f a = rret b -> decodes_at (rbind m f) e b.
Proof. intros A B m f e a b H1 H2 pos rest. unfold rbind. rewrite H1, H2. reflexivity. Qed.

Lemma decodes_at_ext : forall {A} (m : reader A) e1 e2 a, (forall p, e1 p = e2 p) ->
  decodes_at m e1 a -> decodes_at m e2 a.
Proof. intros A m e1 e2 a E H pos rest. rewrite <- E. apply H. Qed.

Lemma papp_assoc : forall e1 e2 e3 p, papp (papp e1 e2) e3 p = papp e1 (papp e2 e3) p.
Proof. intros. unfold papp. now rewrite app_length, Nat.add_assoc, app_assoc. Qed.
Lemma papp_nil_l : forall e p, papp pnil e p = e p.
Proof. intros. unfold papp, pnil. cbn. now rewrite Nat.add_0_r. Qed.
Lemma papp_nil_r : forall e p, papp e pnil p = e p.
Proof. intros. unfold papp, pnil. now rewrite app_nil_r. Qed.
Lemma papp_ext : forall e1 e1' e2 e2', (forall p, e1 p = e1' p) -> (forall p, e2 p = e2' p) ->
  forall p, papp e1 e2 p = papp e1' e2' p.
Proof. intros e1 e1' e2 e2' H1 H2 p. unfold papp. now rewrite H1, H2. Qed.
Lemma papp_pfix : forall b1 b2 p, papp (pfix b1) (pfix b2) p = pfix (b1 ++ b2) p.
Proof. reflexivity. Qed.
Lemma pconcat_pfix : forall l p, pconcat (map pfix l) p = concat l.
Proof. induction l as [|b l IH]; intros p; [reflexivity|]. cbn [map pconcat concat]. unfold papp. now rewrite IH. Qed.

(** ** Alignment *)

Lemma bits_of_zero : forall n, bits_of n 0 = repeat false n.
Proof. induction n as [|n IH]; [reflexivity|]. cbn [bits_of repeat]. now rewrite Z.testbit_0_l, IH. Qed.

Lemma walign_at : forall b w, (0 < b) -> wfaults w = [] ->
  walign b w = (mkW (wbits w ++ padding b (length (wbits w))) [],
                Ok (length (wbits w) + length (padding b (length (wbits w))))).
Proof.
  intros b w Hb Hw. unfold walign, padding. replace (b =? 0) with false by lia.
  destruct (discard (length (wbits w)) b =? 0) eqn:E.
  - apply Nat.eqb_eq in E. rewrite E. cbn [repeat length]. rewrite app_nil_r, Nat.add_0_r.
    destruct w as [wb wf]; cbn in *; now subst wf.
  - unfold wbind, write_bits. rewrite (encodes_put _ w Hw). rewrite bits_of_zero. cbn [wbits].
    now rewrite app_length.
Qed.

Lemma walign_encodes : forall b, 0 < b -> encodes_at (wbind (walign b) (fun _ => wret tt)) (padding b).
Proof. intros b Hb w Hw. unfold wbind. rewrite (walign_at b w Hb Hw). reflexivity. Qed.

Lemma ralign_decodes : forall b, 0 < b -> decodes_at (rbind (ralign b) (fun _ => rret tt)) (padding b) tt.
Proof.
  intros b Hb pos rest. unfold rbind, ralign, padding. replace (b =? 0) with false by lia. cbn [rpos].
  destruct (discard pos b =? 0) eqn:E.
  - apply Nat.eqb_eq in E. rewrite E. cbn [repeat length app]. unfold rret. now rewrite Nat.add_0_r.
  - unfold rbind, read_bits. cbn [rrem rpos]. rewrite app_length, repeat_length.
    replace (_ <=? _) with true by lia. unfold rret.
    rewrite skipn_app, repeat_length, skipn_all2, Nat.sub_diag by (rewrite repeat_length; lia). reflexivity.
Qed.

(** ** Codecs with a context *)

(** From context [c], [m] appends [enc] and leaves context [c']. *)
Definition pencodes {C} (m : prog (C * wst) unit) (c c' : C) (enc : pbits) : Prop :=
  forall w, wfaults w = [] -> m (c, w) = ((c', mkW (wbits w ++ enc (length (wbits w))) []), Ok tt).
Definition pdecodes {C A} (m : prog (C * rst) A) (c c' : C) (enc : pbits) (a : A) : Prop :=
  forall pos rest, m (c, mkR pos (enc pos ++ rest)) = ((c', mkR (pos + length (enc pos)) rest), Ok a).

Lemma pencodes_ret : forall {C} (c : C), pencodes (sret tt) c c pnil.
Proof. intros C c [b f] H; cbn in *. unfold sret, pnil. subst f. now rewrite app_nil_r. Qed.

Lemma pencodes_bind : forall {C} m (f : unit -> prog (C * wst) unit) c0 c1 c2 e1 e2,
  pencodes m c0 c1 e1 -> pencodes (f tt) c1 c2 e2 -> pencodes (sbind m f) c0 c2 (papp e1 e2).
Proof.
  intros C m f c0 c1 c2 e1 e2 H1 H2 w Hw. unfold sbind. rewrite (H1 w Hw).
  rewrite (H2 (mkW (wbits w ++ e1 (length (wbits w))) []) eq_refl). cbn [wbits]. unfold papp.
  now rewrite app_length, app_assoc.
Qed.

Lemma pencodes_ext : forall {C} (m : prog (C * wst) unit) c c' e1 e2, (forall p, e1 p = e2 p) ->
  pencodes m c c' e1 -> pencodes m c c' e2.
Proof. intros C m c c' e1 e2 E H w Hw. rewrite <- E. now apply H. Qed.

Lemma pencodes_ignore : forall {C} (m : prog (C * wst) unit) c c' e, pencodes m c c' e -> pencodes (signore m) c c' e.
Proof. intros C m c c' e H w Hw. unfold signore. now rewrite (H w Hw). Qed.

Lemma pencodes_stream : forall {C} (m : writer unit) (c : C) e, encodes_at m e -> pencodes (on_stream m) c c e.
Proof. intros C m c e H w Hw. unfold on_stream. now rewrite (H w Hw). Qed.

Lemma pencodes_bind_ctx : forall {C} (m : prog (C * wst) unit) (f : unit -> prog (C * wst) unit) c0 c1 c2 e,
  (forall w, m (c0, w) = ((c1, w), Ok tt)) -> pencodes (f tt) c1 c2 e -> pencodes (sbind m f) c0 c2 e.
Proof. intros C m f c0 c1 c2 e H1 H2 w Hw. unfold sbind. rewrite H1. now apply H2. Qed.

Lemma pencodes_with_ctx : forall {C} (m : prog (C * wst) unit) c c' e,
  pencodes m c c' e -> encodes_at (with_ctx c m) e.
Proof. intros C m c c' e H w Hw. unfold with_ctx. now rewrite (H w Hw). Qed.

Lemma pdecodes_ret : forall {C A} (c : C) (a : A), pdecodes (sret a) c c pnil a.
Proof. intros C A c a pos rest. unfold sret, pnil. cbn. now rewrite Nat.add_0_r. Qed.

Lemma pdecodes_bind : forall {C A B} (m : prog (C * rst) A) (f : A -> prog (C * rst) B) c0 c1 c2 e1 e2 a b,
  pdecodes m c0 c1 e1 a -> pdecodes (f a) c1 c2 e2 b -> pdecodes (sbind m f) c0 c2 (papp e1 e2) b.
Proof.
  intros C A B m f c0 c1 c2 e1 e2 a b H1 H2 pos rest. unfold sbind, papp.
  rewrite <- app_assoc, H1, H2. now rewrite app_length, Nat.add_assoc.
Qed.

Lemma pdecodes_ext : forall {C A} (m : prog (C * rst) A) c c' e1 e2 a, (forall p, e1 p = e2 p) ->
  pdecodes m c c' e1 a -> pdecodes m c c' e2 a.
Proof. intros C A m c c' e1 e2 a E H pos rest. rewrite <- E. apply H. Qed.

Lemma pdecodes_map : forall {C A B} (m : prog (C * rst) A) (f : A -> prog (C * rst) B) c c' e a b,
  pdecodes m c c' e a -> f a = sret b -> pdecodes (sbind m f) c c' e b.
Proof. intros C A B m f c c' e a b H1 H2 pos rest. unfold sbind. rewrite H1, H2. reflexivity. Qed.

Lemma pdecodes_bind_ctx : forall {C A B} (m : prog (C * rst) A) (f : A -> prog (C * rst) B) c0 c1 c2 e a b,
  (forall r, m (c0, r) = ((c1, r), Ok a)) -> pdecodes (f a) c1 c2 e b -> pdecodes (sbind m f) c0 c2 e b.
Proof. intros C A B m f c0 c1 c2 e a b H1 H2 pos rest. unfold sbind. rewrite H1. apply H2. Qed.

Lemma pdecodes_stream : forall {C A} (m : reader A) (c : C) e a, decodes_at m e a -> pdecodes (on_stream m) c c e a.
Proof. intros C A m c e a H pos rest. unfold on_stream. now rewrite H. Qed.

Lemma pdecodes_with_ctx : forall {C A} (m : prog (C * rst) A) c c' e a,
  pdecodes m c c' e a -> decodes_at (with_ctx c m) e a.
Proof. intros C A m c c' e a H pos rest. unfold with_ctx. now rewrite H. Qed.
