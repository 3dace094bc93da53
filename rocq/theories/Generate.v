(** The generator as a whole, internal/generator/gen.go: which files a run writes.

    What the templates make of a declaration is not modelled here: it is part of
    the declaration, as None if executing the template fails. *)

Require Import ZArith String Ascii List Bool Permutation.
From Verif Require Import Files.
Import ListNotations.
Open Scope Z_scope.

(** ** Declarations *)

Inductive kind := KEnum | KUnion | KBitmask | KChoice | KStruct.

(** typeName + ".go.tmpl", newTypeOutput, gen.go:217-242. *)
Definition template_of (k : kind) : text :=
  match k with
  | KEnum => str "enum.go.tmpl"
  | KUnion => str "union.go.tmpl"
  | KBitmask => str "bitmask.go.tmpl"
  | KChoice => str "choice.go.tmpl"
  | KStruct => str "struct.go.tmpl"
  end.

(** A type: its name in snake case, strcase.ToSnake(name), gen.go:242, whether it
    has template parameters, and what its template is executed to. *)
Record decl := { d_name : text; d_templated : bool; d_code : option text }.

(** A package, ast/package.go: the fields Name, Enums, Unions, Bitmasks, Choices
    and Structs. The five fields are maps; the lists have their values in any
    order. [p_preamble] and [p_code] are what preamble.go.tmpl and package.go.tmpl
    are executed to. *)
Record package := {
  p_name : text;
  p_preamble : option text;
  p_code : option text;
  p_enums : list decl;
  p_unions : list decl;
  p_bitmasks : list decl;
  p_choices : list decl;
  p_structs : list decl
}.

(** ** Outputs *)

(** output, gen.go:192-199, with what its template is executed to in place of the
    data. *)
Record output := { o_name : text; o_template : text; o_code : option text; o_preamble : bool }.

(** newTypeOutput, gen.go:215-243; [stdout] is opts.outputToStdout. *)
Definition newTypeOutput (stdout : bool) (k : kind) (d : decl) : output :=
  {| o_name := d_name d; o_template := template_of k; o_code := d_code d; o_preamble := negb stdout |}.

(** The loops, gen.go:263-293. *)
Definition type_outputs (stdout : bool) (p : package) : list output :=
  map (newTypeOutput stdout KEnum) (p_enums p) ++
  map (newTypeOutput stdout KUnion) (filter (fun d => negb (d_templated d)) (p_unions p)) ++
  map (newTypeOutput stdout KBitmask) (p_bitmasks p) ++
  map (newTypeOutput stdout KChoice) (filter (fun d => negb (d_templated d)) (p_choices p)) ++
  map (newTypeOutput stdout KStruct) (filter (fun d => negb (d_templated d)) (p_structs p)).

(** a < b for Go strings: byte by byte. *)
Fixpoint before (a b : text) : bool :=
  match a, b with
  | _, [] => false
  | [], _ :: _ => true
  | x :: a', y :: b' =>
      if (nat_of_ascii x <? nat_of_ascii y)%nat then true
      else if (nat_of_ascii y <? nat_of_ascii x)%nat then false
      else before a' b'
  end.
Definition same_text (a b : text) : bool := if list_eq_dec ascii_dec a b then true else false.

(** The function given to sort.Slice, gen.go:295-301. *)
Definition less (a b : output) : bool :=
  if same_text (o_template a) (o_template b) then before (o_name b) (o_name a)
  else before (o_template b) (o_template a).

(** What sort.Slice promises: of two elements no one is less than one before it.
    The order of equal elements is not specified. *)
Fixpoint in_order (l : list output) : Prop :=
  match l with
  | [] => True
  | a :: l' => Forall (fun b => less b a = false) l' /\ in_order l'
  end.

(** newOutputs, gen.go:255-304. The iteration over the maps, in any order, and
    sort.Slice, which is not stable, make it a relation. *)
Definition newOutputs (stdout : bool) (p : package) (outs : list output) : Prop :=
  exists l, Permutation (type_outputs stdout p) l /\ in_order l /\
    outs = {| o_name := str "pkg"; o_template := str "package.go.tmpl"; o_code := p_code p; o_preamble := true |} :: l.

(** output.executeTemplate, gen.go:245-253. *)
Definition executeTemplate (p : package) (o : output) : option text :=
  if o_preamble o then
    match p_preamble p with
    | None => None
    | Some a => match o_code o with None => None | Some b => Some (a ++ b) end
    end
  else o_code o.

(** ** Files *)

(** The options of a run: the root path, the root package, the path length limit
    and what writeGoSource, gen.go:167-190, writes, or None if it fails: the code
    itself, or the code after StripImports and format.Source. *)
Record config := {
  c_root : text;
  c_root_package : text;
  c_max : Z;
  c_source : text -> option text
}.

(** The contents of the files, by path. *)
Definition files := text -> option text.
Definition put (path : text) (c : option text) (fs : files) : files :=
  fun q => if list_eq_dec ascii_dec q path then c else fs q.

(** The directory of a package, gen.go:109-110; the root path is clean. *)
Definition output_dir (c : config) (p : package) : text := join_path (c_root c) (package_dir (p_name p)).

(** Whether a run succeeded, the files and uniquePaths. *)
Definition state := (bool * files * counts)%type.
Definition ok (r : state) : bool := fst (fst r).
Definition disk (r : state) : files := snd (fst r).
Definition used_paths (r : state) : counts := snd r.

(** The loop of generatePackage, gen.go:324-335, with writeToFile, gen.go:108-135:
    a file is opened, which empties or creates it, and removed if what is written
    to it fails. Creating directories and files succeeds. *)
Fixpoint write_outputs (c : config) (p : package) (outs : list output) (fs : files) (st : counts) : state :=
  match outs with
  | [] => (true, fs, st)
  | o :: outs' =>
      match executeTemplate p o with
      | None => (false, fs, st)
      | Some code =>
          match assembleUniqueFilePath st (output_dir c p) (o_name o) (c_max c) with
          | None => (false, fs, st)
          | Some (path, st') =>
              match c_source c code with
              | None => (false, put path None fs, st')
              | Some t => write_outputs c p outs' (put path (Some t) fs) st'
              end
          end
      end
  end.

(** generatePackage, gen.go:306-336, to files. *)
Definition generatePackage (c : config) (p : package) (outs : list output) (fs : files) (st : counts) : state :=
  match c_root_package c with
  | [] => (false, fs, st)
  | _ => write_outputs c p outs fs st
  end.

(** The loop of Generate, gen.go:91-96. *)
Fixpoint generate_packages (c : config) (l : list (package * list output)) (fs : files) (st : counts) : state :=
  match l with
  | [] => (true, fs, st)
  | (p, outs) :: l' =>
      match generatePackage c p outs fs st with
      | (true, fs', st') => generate_packages c l' fs' st'
      | r => r
      end
  end.

(** Generate, gen.go:66-97, to files: the packages in any order. *)
Definition Generate (c : config) (m : list package) (fs : files) (st : counts) (r : state) : Prop :=
  exists l, Permutation m (map fst l) /\ Forall (fun x => newOutputs false (fst x) (snd x)) l /\
    generate_packages c l fs st = r.

(** generatePackage, gen.go:313-322, to the standard output. *)
Fixpoint execute_all (p : package) (outs : list output) : option text :=
  match outs with
  | [] => Some []
  | o :: outs' =>
      match executeTemplate p o with
      | None => None
      | Some a => match execute_all p outs' with None => None | Some b => Some (a ++ b) end
      end
  end.

Definition find_package (name : text) (m : list package) : option package :=
  find (fun p => same_text (p_name p) name) m.

(** Generate, gen.go:76-89, with the root path "-": what is printed, or None for an
    error. *)
Definition GenerateStdout (c : config) (name : text) (m : list package) (r : option text) : Prop :=
  match find_package name m with
  | None => r = None
  | Some p =>
      match c_root_package c with
      | [] => r = None
      | _ => exists outs, newOutputs true p outs /\
               r = match execute_all p outs with None => None | Some code => c_source c code end
      end
  end.
