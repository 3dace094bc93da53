(** The files that the generator writes: their paths, import paths and import
    sections (internal/generator/gen.go, strip_imports.go, funcs.go,
    internal/ast/package.go, templates/preamble.go.tmpl).  A Go string is a list
    of bytes. *)

Require Import ZArith String Ascii List Bool DecimalString.
Import ListNotations.
Open Scope Z_scope.

Definition text := list ascii.
Definition str (s : string) : text := list_ascii_of_string s.
Definition len (s : text) : Z := Z.of_nat (length s).

(** ** Functions of package strings *)

(** strings.HasPrefix *)
Fixpoint starts (p s : text) : bool :=
  match p, s with
  | [], _ => true
  | c :: p', d :: s' => (c =? d)%char && starts p' s'
  | _ :: _, [] => false
  end.
(** strings.Index with the slices before and after the first occurrence. *)
Fixpoint cut (sub s : text) : option (text * text) :=
  if starts sub s then Some ([], skipn (length sub) s)
  else match s with
       | [] => None
       | c :: s' => match cut sub s' with Some (a, b) => Some (c :: a, b) | None => None end
       end.
(** strings.Contains *)
Definition contains (sub s : text) : bool := match cut sub s with Some _ => true | None => false end.
(** strings.Split by one byte *)
Fixpoint split (c : ascii) (s : text) : list text :=
  match s with
  | [] => [[]]
  | d :: s' =>
      if (d =? c)%char then [] :: split c s'
      else match split c s' with l :: r => (d :: l) :: r | [] => [[d]] end
  end.
(** strings.Join *)
Fixpoint join (sep : text) (l : list text) : text :=
  match l with
  | [] => []
  | [x] => x
  | x :: l' => x ++ sep ++ join sep l'
  end.
(** strings.LastIndex of one byte *)
Fixpoint last_index_from (c : ascii) (s : text) (i r : Z) : Z :=
  match s with
  | [] => r
  | d :: s' => last_index_from c s' (i + 1) (if (d =? c)%char then i else r)
  end.
Definition last_index (c : ascii) (s : text) : Z := last_index_from c s 0 (-1).
(** strings.TrimSpace; the two white spaces beyond ASCII are not treated. *)
Definition is_space (c : ascii) : bool :=
  let n := nat_of_ascii c in ((9 <=? n)%nat && (n <=? 13)%nat) || (n =? 32)%nat.
Fixpoint trim_left (s : text) : text :=
  match s with [] => [] | c :: s' => if is_space c then trim_left s' else s end.
Definition trim (s : text) : text := rev (trim_left (rev (trim_left s))).
(** strings.ToLower on ASCII *)
Definition lower_char (c : ascii) : ascii :=
  let n := nat_of_ascii c in if ((65 <=? n)%nat && (n <=? 90)%nat) then ascii_of_nat (n + 32) else c.
Definition lower (s : text) : text := map lower_char s.
(** strings.Replace of one byte by one byte *)
Definition replace (a b : ascii) (s : text) : text := map (fun c => if (c =? a)%char then b else c) s.
(** Sprintf("%d") of a natural number *)
Definition decimal (n : nat) : text := str (NilZero.string_of_uint (Nat.to_uint n)).

(** ** Paths *)

(** uniquePaths, gen.go:63-64: how often a stem has been used. *)
Definition counts := list (text * nat).
Fixpoint count_of (k : text) (m : counts) : option nat :=
  match m with
  | [] => None
  | (j, n) :: m' => if list_eq_dec ascii_dec j k then Some n else count_of k m'
  end.

(** path.Join(outputDir, fn); outputDir is the result of path.Join and fn a
    snake-case name, so that there is nothing to clean up. *)
Definition join_path (dir fn : text) : text := dir ++ "/"%char :: fn.

(** The stem of the file, gen.go:148-158. *)
Definition shorten (file : text) (max : Z) : text :=
  if 0 <? max then
    if max - 5 <? len file then
      let file := firstn (Z.to_nat (max - 5)) file in
      if contains ["_"%char] file && (last_index "/"%char file <? last_index "_"%char file)
      then firstn (Z.to_nat (last_index "_"%char file)) file
      else file
    else file
  else file.

(** assembleUniqueFilePath, gen.go:137-166; None is the error about the length. *)
Definition assembleUniqueFilePath (st : counts) (dir fn : text) (max : Z) : option (text * counts) :=
  if max <? len dir + 5 + 2 then None
  else
    let stem := shorten (join_path dir fn) max in
    match count_of stem st with
    | Some n => Some (stem ++ "_"%char :: decimal n ++ str ".go", (stem, S n) :: st)
    | None => Some (stem ++ str ".go", (stem, 1%nat) :: st)
    end.

(** The calls of one process, one after the other; the first error ends it. *)
Fixpoint requests (st : counts) (max : Z) (l : list (text * text)) : option (list text * counts) :=
  match l with
  | [] => Some ([], st)
  | (dir, fn) :: l' =>
      match assembleUniqueFilePath st dir fn max with
      | None => None
      | Some (p, st') =>
          match requests st' max l' with Some (ps, st'') => Some (p :: ps, st'') | None => None end
      end
  end.

(** The directory of a package below the root, gen.go:105-106. *)
Definition package_dir (pkg : text) : text := join (str "/") (split "."%char (lower pkg)).
(** The import path below the root package, preamble.go.tmpl:14. *)
Definition import_path (pkg : text) : text := replace "."%char "/"%char pkg.
(** GoPackageAlias, package.go:421-423. *)
Definition GoPackageAlias (pkg : text) : text := replace "."%char "_"%char pkg.

(** ** Import sections *)

Inductive result := Ok (code : text) | Panic.

(** The name under which an import line is used, strip_imports.go:36-50; None is a
    slice out of range. *)
Definition import_name (line : text) : option text :=
  if contains (str " ") line then Some (hd [] (split " "%char line))
  else
    let sep := last_index "/"%char line in
    if sep <? 0 then Some (firstn (length line - 2) (skipn 1 line))
    else if len line - 1 <? sep + 1 then None
    else Some (firstn (length line - 1 - Z.to_nat (sep + 1)) (skipn (Z.to_nat (sep + 1)) line)).

(** The loop, strip_imports.go:31-54. *)
Fixpoint used_imports (content : text) (lines : list text) : option (list text) :=
  match lines with
  | [] => Some []
  | l :: lines' =>
      let line := trim l in
      if len line <? 3 then used_imports content lines'
      else match import_name line with
           | None => None
           | Some n =>
               match used_imports content lines' with
               | None => None
               | Some r => Some (if contains (n ++ str ".") content then l :: r else r)
               end
           end
  end.

Definition newline : ascii := ascii_of_nat 10.

(** StripImports, strip_imports.go:9-58. *)
Definition StripImports (code : text) : result :=
  match cut (str "import (") code with
  | None => Ok code
  | Some (before, content) =>
      match cut (str ")") content with
      | None => Panic
      | Some (section, rest) =>
          let rest := ")"%char :: rest in
          match used_imports rest (split newline section) with
          | None => Panic
          | Some used => Ok (before ++ str "import (" ++ join [newline] used ++ rest)
          end
      end
  end.
