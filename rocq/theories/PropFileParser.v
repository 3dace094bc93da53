(** C102: which syntax tree the text of a schema file stands for. *)

Require Import ZArith String Ascii List Bool Lia.
From Verif Require Literals Lexer LexerSpec LexerLiteralFacts.
From Verif Require Import Files Visitor Parser ParserSpec ParserFacts ParserTextFacts FileParser FileParserSpec FileParserFacts FileParserDeclFacts FileParserSound.
Import ListNotations.
Open Scope nat_scope.
Open Scope string_scope.
Open Scope list_scope.

(** Every file that can be written, and for which there is only one way to read it, is
    read as itself: from its tokens ... *)
Theorem C102_reads : forall f ts, file_ok true f -> file_written f ts -> well_lexed ts -> parse_file ts = Some f.
Proof. exact read_file. Qed.
Print Assumptions C102_reads.
(** ... and from its characters, whatever layout and comments there are. *)
Theorem C102_text : forall f ts s, file_ok true f -> file_written f ts -> text_of ts s -> parse_file (stream s) = Some f.
Proof. exact text_reads. Qed.
Print Assumptions C102_text.

(** So no text stands for two such files. *)
Theorem C102_unique : forall f g ts, file_ok true f -> file_ok true g -> file_written f ts -> file_written g ts -> well_lexed ts -> f = g.
Proof. intros f g ts F G Wf Wg L. pose proof (C102_reads f ts F Wf L) as A. pose proof (C102_reads g ts G Wg L) as B. congruence. Qed.
Print Assumptions C102_unique.

(** Nothing else is read: every token of a text that is accepted belongs to the tree, in
    its place. *)
Theorem C102_sound : forall s f, parse_file (stream s) = Some f -> file_written f (stream s) /\ file_ok false f.
Proof. exact text_file_sound. Qed.
Print Assumptions C102_sound.

(** Only a constraint in which a name comes right after > or ) or the like can make the
    field another one. *)
Theorem C102_constraint : forall c, like_field c -> name_after_type (map fst (expr_tokens c ++ [SEMI])) = true.
Proof. exact like_field_name. Qed.
Print Assumptions C102_constraint.

(** ** Cases *)

Definition file_of (s : string) : option cfile := parse_file (stream (str s)).
Definition n_ (s : string) : cexpr := CId s.
Definition d_ (s : string) : cexpr := CLiteral Literals.TDecimal s.
Definition ft (t : ctype) (p : cparams) (n : string) (r : option (option cexpr)) : cfieldtype := mkCFT false false (mkCI t p) n r.
Definition ex_text : string :=
"package a.b;
import x.Y; import z.*;
struct S<T>(uint8 n) {
  align(8): bit:3 x;
  off: optional T<int8> f[n] = 2 if n > 1 : f > 0;
  T<int8>(explicit p, n + 1) h : n > 2;
  bit<n > 2> y; // the length
  function int8 g() { return n + 1; }
};
choice C(int8 k) on k { case 1: case 2: int8 a; default: ; };
union U { packed int16 v[]; };
enum int8 E { A, @deprecated B = 2, };
bitmask uint8 M { X };
const int8 K = 3;
subtype S<int8> SI;
instantiate a.S<bit:4> Inst;
".
Definition ex_file : cfile := mkCFile None (Some ["a"; "b"]) [mkCIm ["x"] (Some "Y"); mkCIm ["z"] None]
  [CStruct (mkCS "S" ["T"] [(CKeyword "uint8", "n")]
     [mkCF (Some (d_ "8")) None false false (ft (CBitField false (Some 3)) CNone "x" None) None None None;
      mkCF None (Some (n_ "off")) false true (ft (CNamed ["T"] [CKeyword "int8"]) CNone "f" (Some (Some (n_ "n"))))
        (Some (d_ "2")) (Some (CBinary BGt (n_ "n") (d_ "1"))) (Some (CBinary BGt (n_ "f") (d_ "0")));
      mkCF None None false false (ft (CNamed ["T"] [CKeyword "int8"]) (CArgs [CExplicit "p"; CArg (CBinary BPlus (n_ "n") (d_ "1"))]) "h" None)
        None None (Some (CBinary BGt (n_ "n") (d_ "2")));
      mkCF None None false false (ft (CBitField false None) (CLength (CBinary BGt (n_ "n") (d_ "2"))) "y" None) None None None]
     [mkCFn (CKeyword "int8") "g" (CBinary BPlus (n_ "n") (d_ "1"))]);
   CChoice (mkCC "C" [] [(CKeyword "int8", "k")] (n_ "k") [([d_ "1"; d_ "2"], Some (mkCCF (ft (CKeyword "int8") CNone "a" None) None))] (Some None) []);
   CUnion (mkCU "U" [] [] [mkCCF (mkCFT true false (mkCI (CKeyword "int16") CNone) "v" (Some None)) None] []);
   CEnum (mkCE (mkCI (CKeyword "int8") CNone) "E" [(None, "A", None); (Some Deprecated, "B", Some (d_ "2"))]);
   CBitmask (mkCB (mkCI (CKeyword "uint8") CNone) "M" [("X", None)]);
   CConst (mkCI (CKeyword "int8") CNone) "K" (d_ "3");
   CSubtype (CNamed ["S"] [CKeyword "int8"]) "SI";
   CInstantiate (CNamed ["a"; "S"] [CBitField false (Some 4)]) "Inst"].
Example C102_example : parse_file (stream (str ex_text)) = Some ex_file.
Proof. vm_compute. reflexivity. Qed.
Lemma not_like c : name_after_type (map fst (expr_tokens c ++ [SEMI])) = false -> ~ like_field c.
Proof. intros H L. apply C102_constraint in L. unfold ptok in *. congruence. Qed.
(** The hypotheses hold for this file. *)
Example C102_applies : file_ok true ex_file /\ file_written ex_file (stream (str ex_text)) /\ well_lexed (stream (str ex_text)).
Proof.
  split; [|split].
  - unfold file_ok. cbn -[like_field]. unfold struct_ok, choice_ok, union_ok, enum_ok, bitmask_ok, params_ok, field_ok, case_ok, choice_field_ok, function_ok, field_type_ok, inst_ok.
    cbn -[like_field]. intuition (try discriminate; try lia). revert H2. apply not_like. vm_compute. reflexivity.
  - apply C102_sound. exact C102_example.
  - apply stream_lexed.
Qed.
(** Syntax errors are found. *)
Example C102_errors : file_of "struct S { int8 }; " = None /\ file_of "choice C on k { };" = None /\ file_of "enum int8 E { };" = None /\
  file_of "import x;" = None /\ file_of "struct S { int8 a; } " = None /\ file_of "struct S { }; import x.Y;" = None /\ file_of "" <> None.
Proof. vm_compute. repeat split; discriminate. Qed.

(** ** Not every file is read as itself *)

(** C<D> f : a < b && c > d; is read as the field d of the type a<b && c> at the offset
    (C < D) > f, not as the field f of the type C<D> with a constraint. *)
Definition structure_of (f : cfield) : cfile := mkCFile None None [] [CStruct (mkCS "S" [] [] [f] [])].
Definition constrained : cfile :=
  structure_of (mkCF None None false false (ft (CNamed ["C"] [CNamed ["D"] []]) CNone "f" None) None None
    (Some (CBinary BLogAnd (CBinary BLt (n_ "a") (n_ "b")) (CBinary BGt (n_ "c") (n_ "d"))))).
Definition at_offset : cfile :=
  structure_of (mkCF None (Some (CBinary BGt (CBinary BLt (n_ "C") (n_ "D")) (n_ "f"))) false false
    (ft (CNamed ["a"] []) (CLength (CBinary BLogAnd (n_ "b") (n_ "c"))) "d" None) None None None).
Theorem C102_constraint_refuted : exists f g s, file_ok false f /\ file_written f (stream s) /\ file_ok false g /\ file_written g (stream s) /\ f <> g /\ parse_file (stream s) = Some g.
Proof.
  exists constrained, at_offset, (str "struct S { C<D> f : a < b && c > d; };").
  assert (P : parse_file (stream (str "struct S { C<D> f : a < b && c > d; };")) = Some at_offset) by (vm_compute; reflexivity).
  destruct (C102_sound _ _ P) as [W Ok]. split; [|split; [|split; [exact Ok | split; [exact W | split; [discriminate | exact P]]]]].
  - clear P W Ok. unfold file_ok, constrained, structure_of. cbn -[like_field]. unfold struct_ok, params_ok, field_ok, field_type_ok, inst_ok. cbn -[like_field]. intuition (try discriminate; try lia).
  - exists (directive_tokens false (CStruct (mkCS "S" [] [] [mkCF None None false false (ft (CNamed ["C"] [CNamed ["D"] []]) CNone "f" None) None None
      (Some (CBinary BLogAnd (CBinary BLt (n_ "a") (n_ "b")) (CBinary BGt (n_ "c") (n_ "d"))))] [])) ++ []). split; [repeat constructor | vm_compute; reflexivity].
Qed.
Print Assumptions C102_constraint_refuted.
(** T<n> x; is a template with the argument n, not the type T with the length n. *)
Theorem C102_length_refuted : exists f g s, file_ok false f /\ file_written f (stream s) /\ file_ok false g /\ file_written g (stream s) /\ f <> g /\ parse_file (stream s) = Some g.
Proof.
  exists (structure_of (mkCF None None false false (ft (CNamed ["T"] []) (CLength (n_ "n")) "x" None) None None None)),
    (structure_of (mkCF None None false false (ft (CNamed ["T"] [CNamed ["n"] []]) CNone "x" None) None None None)), (str "struct S { T<n> x; };").
  assert (P : parse_file (stream (str "struct S { T<n> x; };")) = Some (structure_of (mkCF None None false false (ft (CNamed ["T"] [CNamed ["n"] []]) CNone "x" None) None None None))) by (vm_compute; reflexivity).
  destruct (C102_sound _ _ P) as [W Ok]. split; [|split; [|split; [exact Ok | split; [exact W | split; [discriminate | exact P]]]]].
  - clear P W Ok. unfold file_ok, structure_of. cbn -[like_field]. unfold struct_ok, params_ok, field_ok, field_type_ok, inst_ok. cbn -[like_field]. intuition (try discriminate; try lia).
  - exists (directive_tokens false (CStruct (mkCS "S" [] [] [mkCF None None false false (ft (CNamed ["T"] []) (CLength (n_ "n")) "x" None) None None None] [])) ++ []).
    split; [repeat constructor | vm_compute; reflexivity].
Qed.
Print Assumptions C102_length_refuted.
