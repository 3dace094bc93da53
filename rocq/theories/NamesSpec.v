(** What names have to be like. *)

Require Import ZArith String Ascii List Bool Arith.
From Verif Require Import Packages PackagesSpec Members Names.
Import ListNotations.
Open Scope string_scope.

Definition letter (c : ascii) : Prop := let k := nat_of_ascii c in ((65 <= k <= 90) \/ (97 <= k <= 122))%nat.
Definition starts_with_letter (n : string) : Prop := match n with EmptyString => False | String c _ => letter c end.

(** Neither is the beginning of the other. *)
Definition apart (a b : string) : Prop := forall s, b <> a ++ s /\ a <> b ++ s.

(** Words of letters with single underscores between them. *)
Inductive word : string -> Prop :=
| LastLetter : forall c, letter c -> word (String c "")
| MoreLetters : forall c s, letter c -> word s -> word (String c s)
| Underscore : forall c s, letter c -> word s -> word (String c (String "_" s)).

(** The same up to upper and lower case. *)
Definition same_letters (a b : string) : Prop := lowered a = lowered b.

(** [n] is nothing that the package [q] knows: no type of [q] or of what it imports,
    no member of the current types, no item of an enum. *)
Definition unknown_name (w : world) (q : package) (n : string) : Prop :=
  no_name w q n /\ forall r s, reach w q r -> ~ has_item r n s.
