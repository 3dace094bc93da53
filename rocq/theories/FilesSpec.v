(** What the files of the generator should be called and contain. *)

Require Import ZArith String Ascii List Bool.
From Verif Require Import Files.
Import ListNotations.
Open Scope Z_scope.

(** ** Paths *)

Definition is_digit (c : ascii) : Prop := (48 <= nat_of_ascii c <= 57)%nat.
(** The name has an underscore followed by a digit, as in foo_1. *)
Definition has_number (fn : text) : Prop := exists a c b, fn = a ++ "_"%char :: c :: b /\ is_digit c.
(** Capital letters, and names that are the same but for them. *)
Definition is_capital (c : ascii) : Prop := (65 <= nat_of_ascii c <= 90)%nat.
Definition same_letter (c d : ascii) : Prop :=
  c = d \/ (is_capital c /\ nat_of_ascii d = nat_of_ascii c + 32)%nat \/ (is_capital d /\ nat_of_ascii c = nat_of_ascii d + 32)%nat.
Definition same_up_to_case (a b : text) : Prop := Forall2 same_letter a b.
(** A file name: no slash. *)
Definition is_name (fn : text) : Prop := ~ In "/"%char fn.

(** Files of which none has a number in its name. *)
Definition fine (l : list (text * text)) : Prop := forall dir fn, In (dir, fn) l -> is_name fn /\ ~ has_number fn.

(** ** Import sections *)

(** An import line: the path alone, as a directory and a last component, or an
    alias and a path. *)
Inductive imp :=
| Path (dir : option text) (base : text)
| Alias (alias path : text).

Definition quote : ascii := ascii_of_nat 34.
Definition line_of (i : imp) : text :=
  str "    " ++
  match i with
  | Path (Some d) b => quote :: d ++ "/"%char :: b ++ [quote]
  | Path None b => quote :: b ++ [quote]
  | Alias a p => a ++ " "%char :: quote :: p ++ [quote]
  end.
(** The name by which the code refers to the package. *)
Definition name_of (i : imp) : text := match i with Path _ b => b | Alias a _ => a end.

(** Neither white space nor a closing parenthesis. *)
Definition plain (s : text) : Prop := Forall (fun c => is_space c = false /\ c <> ")"%char) s.
Definition well_formed (i : imp) : Prop :=
  match i with
  | Path d b => plain b /\ b <> [] /\ ~ In "/"%char b /\ match d with Some d => plain d | None => True end
  | Alias a p => plain a /\ a <> [] /\ plain p
  end.

(** A generated file: [header] has no import section; the section lists [l]. *)
Definition no_section (header : text) : Prop := forall a b, header <> a ++ str "import (" ++ b.
Definition file (header : text) (l : list imp) (body : text) : text :=
  header ++ str "import (" ++ join [newline] ([] :: map line_of l ++ [[]]) ++ str ")" ++ body.
(** The same with the section written without empty lines. *)
Definition stripped (header : text) (l : list imp) (body : text) : text :=
  header ++ str "import (" ++ join [newline] (map line_of l) ++ str ")" ++ body.

(** [name] with a dot occurs in [body]. *)
Definition mentioned (name body : text) : Prop := exists a b, body = a ++ name ++ "."%char :: b.
(** [name] is used in [body]: it occurs with a dot after it, and is not the end of
    a longer identifier. *)
Definition ident_char (c : ascii) : Prop :=
  let n := nat_of_ascii c in
  ((48 <= n <= 57) \/ (65 <= n <= 90) \/ (97 <= n <= 122) \/ n = 95)%nat.
Definition used (name body : text) : Prop :=
  exists a b, body = a ++ name ++ "."%char :: b /\ forall a' c, a = a' ++ [c] -> ~ ident_char c.
