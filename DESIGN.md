# Formal model of go-zserio in Rocq: design

The property texts are in `properties.jsonl`, the theorems of each property in
`MANIFEST.json`, the attempts to break the theorems with wrong programs in
`seeded/LOG.jsonl`.  The first version of this file was written before the
proofs; it is revised as the model grows.

## How to read the development

* `rocq/theories/Prop*.v`: one theorem per claim, named `Cnn_...`, closed by
  `exact lemma.`, with `Print Assumptions` below it and an `Example
  Cnn_applies` that shows a non-trivial case meeting its hypotheses.  A property
  that the code does not have is stated as it is meant, with the exact
  condition under which it holds, and its failure as `Cnn_refuted...`.
* `*Spec.v`, `Spec.v`: the vocabulary of the statements, independent of the
  functions they are about.
* Files without suffix (`Scalars.v`, `Array.v`, `Schema.v`, ...): the model.
  Every definition cites the lines of `/repo` it models, and says where it
  simplifies.
* `*Facts.v`, `*Thms.v` and the others: proofs.

## Modelling decisions

* Go integers are `Z`; every place where the Go code can wrap (conversions,
  shifts, unary minus, additions on fixed-width types) applies an explicit
  `mod 2^n`.  Lengths, counters and bit positions of type `int` are unbounded.
* A Go function with an `error` result is a function into
  `outcome A := Ok a | Err e | Panic p | NoFuel`; a Go panic is a result, not a
  partial function, and `NoFuel` only stands for a bound on the depth of the
  model's own recursion.
* A bit writer is a state: the bits written so far, plus the number of further
  primitive writes the underlying `io.Writer` will accept (`None` = never
  fails).  The writer functions return the new state *and* the outcome, because
  the array code ignores errors and keeps writing.
* A bit reader is a state: bits consumed, bits remaining.  A failed read leaves
  the reader in the exact state bitio leaves it in.
* The byte-cached reader/writer of bitio is modelled separately and proved to
  refine the ideal streams (C12).
* Generated code: templates are modelled as an interpreter over an abstract
  schema (the resolved AST the templates range over).  A theorem over all
  schemas is then a theorem over all programs the generator emits.
* Expressions inside generated code (conditions, array lengths, bit widths,
  parameters) are arbitrary functions of the parameters and fields, which may
  panic.
* The evaluator of constant expressions is a stateful interpreter (the AST nodes
  are mutable cells with an evaluation state), with a fuel argument; theorems say
  when the fuel suffices, and a crash by unbounded recursion is "every fuel runs
  out".
* Searches over maps whose iteration order Go leaves open take the order as an
  argument; theorems quantify over it.
* Go source text that the generator emits for expressions is a list of tokens,
  and what the Go compiler makes of it is the grammar of the Go specification
  (`GoSyntax.v`).

## What is modelled

| files | code in /repo |
|---|---|
| Bits, Stream, BitIO, Marshal | iface.go, marshal.go, zstream/reader.go, zstream/writer.go, icza/bitio CountReader/CountWriter |
| Scalars, Float16, ScalarTable | ztype/*_encode.go and *_decode.go of bits, bool, varint, varuint, string, bytes, extern, float; NumBits |
| Traits, TraitCache | ztype/array_traits.go |
| Delta | ztype/delta_context.go |
| Array | ztype/array*.go, ztype/object_array*.go |
| Schema | internal/generator/templates: struct, choice, union, enum, bitmask, encode, decode, bitsize, packing context, optional, array and alignment templates |
| Compile | what those templates read from internal/ast, after lexer, parser and visitor: GetOriginalType, CollectSymbols and GetTypeParameter of internal/ast/package.go within one package (no templates, no qualified names) |
| ExprCode | Evaluate (internal/ast/expression.go:764-917), goExpression and Go on the expressions of the package of a file: lengths, widths, conditions, arguments and labels over integers and bools; enum members as arguments, enum items as labels and in comparisons, with their names in Go (Names.v); the methods of functions; without constants and enum items whose values are not literals (with a minus sign or without), enum items in other places, bitmask values, calls of functions, strings, floats, optional members, members of members, shifts, and signs before what depends on the data (for which the generator prints no Go expression) |
| Requests | the sizes of the slices that decoding makes (ztype/string_decode.go:15, bytes_decode.go:19, extern_decode.go:21, array_decode.go:19, object_array_decode.go:17, decode.go.tmpl:80), in order, beside the decoders of Schema; of a packed array only its own slice; not the Go structs that are read into |
| SchemaInto | UnmarshalZserio of the same templates into an object that holds something: decode.go.tmpl:36-97 and the methods in struct, choice, union, enum and bitmask templates; ztype/object_array_decode.go |
| PackedSize | ZserioBitSizePacked: packing_context_bitsize.go.tmpl and the method in struct, choice, union, enum and bitmask templates; ztype/object_array.go |
| Defaults | LoadDefaultValues: default_values.go.tmpl and the method in struct, choice, union, enum and bitmask templates (initialisers as constants) |
| Resolve | ResolveTypes and resolveTypeReference with template arguments, transform.go; the non-builtin branch of Package.GoType |
| Capitalize | CapitalizeNames and instantiateField, instantiateStruct, instantiateChoice (which fields are shared, not their types), transform.go; field_declaration.go.tmpl |
| Names | the identifiers, fields and methods that the templates declare; EnumItem.GoName; names after CapitalizeNames |
| Instances | the expressions that instances of a template share (transform.go), Expression.Evaluate of complete expressions, Struct.Evaluate and Choice.Evaluate on them, EvaluateStructs and EvaluateChoices in any order |
| TypeArgs | the TypeReferences of instances as shared cells: InstantiateTemplates, instantiateType, instantiateStruct, instantiateChoice, instantiateField (transform.go:193-583); the uses in any order; parameters and functions of instances, which are not written through, are left out |
| ArrayObjects | Array objects with their RawArray and PackedContext as cells of a memory: MarshalZserio, UnmarshalZserio, ZserioBitSize, ZserioBitSizePacked, Clone, and assignments to RawArray and its elements (ztype/array.go, array_encode.go, array_decode.go); append by the user (aliasing through spare capacity) is left out |
| Lexer | internal/parser/ZserioLexer.g4:6-160 (all rules) and ANTLR's rule of the longest match, the first rule, and recovery from errors; internal/model/package.go:10-31 | a character is a byte; regular expressions by derivatives; ANTLR's runtime is outside of /repo and modelled after its documentation |
| Parser | expression, literal and id of internal/parser/zserio_parser.go:12829-13460 with their Precpred numbers (ZserioParser.g4:349-388), the end of a dynamicLengthArgument; the token stream of internal/model/package.go:10-31 | recursive descent with fuel, shown sufficient; a syntax error is `None`: ANTLR's repair of errors is left out; for `>` in a dynamicLengthArgument ANTLR's unbounded prediction is replaced by looking at the name after it and what follows |
| AstExpr | internal/ast: expression.go (all operators on constants), mixing_native_types.go, enum.go, bitmask.go, const.go |
| AstTypes | internal/visitor/visitor.go (type references), internal/ast/scope.go (GoType, array traits, delta packing) |
| Packages | internal/model/model.go, internal/model/transform.go (names, resolution), internal/ast/package.go, internal/ast/scope.go lookups, internal/generator/funcs.go imports |
| Files | internal/generator/gen.go file naming, strip_imports.go, funcs.go, templates/preamble.go.tmpl |
| Generate | internal/generator/gen.go: Generate, generatePackage, newOutputs, writeToFile, writeGoSource (what the templates and format.Source return is a parameter) |
| EnumText | templates/enum.go.tmpl text methods, templates/bitmask.go.tmpl |
| Templates | internal/model/transform.go: instantiation of struct templates |
| GoSyntax, ExprPrint | internal/generator/expression.go |
| Literals | literals in internal/ast/expression.go, alignment in internal/visitor/visitor.go, the parts of strconv they use |
| CodecChoice | which codec the templates name for a builtin type: encode, decode, builtin_bitsizeof, instantiate_array_traits, array_traits_type, the scalars of enum and bitmask (internal/generator/templates) |
| Members | internal/ast/expression.go (names, member access, elements, calls, lengthof), package.go GetOriginalSymbol, GetCompoundType; choice.go, struct.go, union.go Evaluate; internal/generator/expression.go types of symbols |
| FileParser | the other functions of internal/parser/zserio_parser.go (packageDirective to fieldConstraint, ZserioParser.g4:18-345), with the choices of AdaptivePredict written out; not ruleGroup, SQL, services and pubsubs | recursive descent with backtracking only for an offset |
| Visitor | internal/visitor/visitor.go, on parse trees of internal/parser/ZserioParser.g4 |
| GoTypes | the Go specification for integer and bool expressions: types, constants, conversions, evaluation (no code in /repo) |

## What is not modelled

* The tables of the generated lexer (`Lexer.v` models the grammar they are generated
  from), and ANTLR's prediction tables and error repair behind the generated parser (`Parser.v` and `FileParser.v` have its grammar; without rule groups, SQL, services and pubsubs), the precedence of operators in printing, which `ExprPrintSpec.zserio_prec` takes from ZserioParser.g4.  `Visitor.v`
  starts from the parse trees that the grammar allows.
* The command line (internal/cli), logging, reading and writing of files; file
  permissions; gofmt (`format.Source`).
* strcase.ToSnake (names of files).  strcase.ToCamel is modelled for ASCII from
  version 0.3.0 of that library, which is not part of /repo; strings.Title,
  strings.ToLower and strings.TrimSpace are modelled for ASCII only.
* Comments, SQL tables, pubsub, services and rules (the generator ignores them).
* Concurrency: the code has no goroutines; the only shared state, the cache of
  element codecs, is modelled as a state machine over request histories (C45).
* Go's compiler beyond the syntax of expressions and the types and values of integer and
  bool expressions.

Simplifications that are local to a definition are stated there.  The larger
ones:

* `Schema.v`: the packed writer evaluates the arguments of an element's type
  after the length check, the model before it.  The selector of a choice is a
  function of the parameters.  ZserioInitPackingContext of a union is modelled
  as doing nothing, which is what it does.  The result of DeltaContext.Init is
  ignored, as in the template.  The panic of the codec cache for large widths
  is modelled in `TraitCache.v`, not in schemas.
* `AstExpr.v`: names are resolved by a scope function; literals are numbers (their texts are in `Literals.v`).
* `AstTypes.v`: a type reference is its text without blanks.
* `Files.v`: path.Join does not clean its result.
* `Templates.v`: structs only; GetSymbol is a lookup in the package's structs;
  functions and type parameters of templates and the names given by
  "instantiate" are left out; type arguments of fields are modelled for one
  struct.
* `CodecChoice.v`: the compiler is modelled by lookups of names and equality of Go types; arrays and objects are in `Schema.v`.
* `Literals.v`: a float is the decimal before rounding; strconv is modelled from
  its documentation and source for the texts that the lexer lets through.
* `Capitalize.v`: instances are made one after the other, inner ones first; type
  parameters and functions are left out; what encoding/json does with a tag is
  modelled from its documentation.
* `Members.v`: an expression is evaluated once (as in `AstExpr.v`); the results of
  constants and enum items are given; functions that call each other in a cycle
  run out of fuel instead of ending with an error; the order in which a choice
  reports its failures is simplified; names are capitalised as by strings.Title
  for ASCII.
* `ExprPrint.v`: spaces are dropped; expressions carry the results of evaluation
  as annotations, so that the theorems hold whatever the evaluator returns.

## Trusted base

* Coq 8.16.1's kernel, including `vm_compute` (used for closed examples and finite
  tables).
* `Print Assumptions` of every theorem in `Prop*.v` prints "Closed under the
  global context": no axioms, not even those of the standard library, are
  used.  (The command is below each theorem; the build prints its output.)
* That each definition of the model says what the Go lines it cites say.
* Dependencies whose source is not in the sandbox: icza/bitio v1.1.0,
  x448/float16 v0.8.4, `encoding/binary`, `io.ReadFull`, `bytes.Buffer`,
  `strconv`/`fmt` formatting.  They are modelled from their published source and
  documentation.
* IEEE 754 arithmetic of Go's float64 is Coq's `SpecFloat`.
* The grammar and the operator precedence of Go, from the language specification.

## Plan per property

| property | modelled | proof |
|---|---|---|
| C01, C02 | bits_encode/bits_decode on ideal stream | arithmetic on MSB-first bit lists |
| C03-C06 | varint/varuint writers, readers and size functions | byte-wise arithmetic, unrolled over the at most 9 bytes, symbolic values |
| C07 | round trip with arbitrary suffix implies prefix freeness | corollary |
| C08-C10 | string/bytes/extern | induction on byte lists |
| C11 | every scalar reader | "consumes a prefix" predicate closed under bind |
| C12 | bitio cache model | simulation, induction on operation sequences |
| C13 | Align | arithmetic; counterexample by computation for large boundaries |
| C14 | marshal.go on both layers | corollary of C12 |
| C15, C16 | DeltaContext | invariant over Init; induction on the sequence |
| C17-C19, C42, C46, C49 | Array, ObjectArray, traits | induction on element lists; counterexamples |
| C20-C25 | schema interpreter | induction on depth of the value and on the field list |
| C26, C27 | packed interpreter with context trees | invariant relating writer and reader context trees |
| C28, C29, C52, C53, C65 | enum.go, bitmask.go, references to items | induction on item lists, invariants of the store |
| C30, C31, C33, C50, C51, C54 | expression.go | simulation of a denotational semantics by the stateful evaluator; independence of order by an invariant of the store |
| C32, C41 | mixing_native_types.go, VisitTypeReference, GoType | case analysis over the type table, symbolic widths |
| C34, C60 | enum.go.tmpl and bitmask.go.tmpl | list lemmas, decimal notation |
| C35, C38, C39, C55-C58 | import graph, lookups, subtype chains | graph reachability with visited set; acyclicity measure; non-termination as "every fuel runs out" |
| C36, C37, C59 | import stripping, assembleUniqueFilePath, import paths | invariant on the used-path map; string lemmas; counterexamples |
| C40, C61-C63 | template instantiation | invariant on the package's structs, rank of templates; counterexamples |
| C43, C44, C64 | schema interpreter on arbitrary input | progress measure (bits left), prefix determinacy, validity invariant; counterexamples |
| C45 | array_traits.go | state machine over request histories |
| C47 | float16 conversions | bit arithmetic, symbolic mantissas |
| C48 | all scalar writers over writers with arbitrary failures | structural: success implies the fault-free run |
| C66, C67 | expression.go of the generator and the Go grammar | unambiguity of the grammar; induction on expressions; counterexamples |
| C68 | float literals | rational arithmetic |
| C69 | integer literals, numerals of a base | loop invariant of ParseUint |
| C70 | string literals | induction over the characters |
| C71 | float literals as exact decimals | splitting the text |
| C72 | the names the templates put together, looked up in tables of ztype, against the codecs of `Schema.v` | cases on the type; arithmetic for the width |
| C73 | the calls in the enum and bitmask templates | cases on the type |
| C74 | the printer (`ExprPrint.v`) and Go's typing (`GoTypes.v`) | induction on expressions; integer types are closed under mixing |
| C75 | the same | cases on the operator |
| C76 | the printer and Go's evaluation | induction on the Go tree, with preservation of types; congruences modulo 2^n |
| C77 | schema interpreter, arrays and contexts, against a wire format given by bit strings (`WireSpec.v`) | induction on the depth of the value; the tree of contexts as a store indexed by paths, and each column of the store as one delta sequence |
| C78 | float16 conversions, against the numbers patterns denote (`FloatSpec.v`) | the dropped bits of the fraction decide between two neighbours; reading checked over all 2^16 patterns by computation in the kernel |
| C79 | evaluation of names in compound types (`Members.v`), against what type references mean (`MembersSpec.means`) | induction on the chain of subtypes; the packages with a current compound type have the imports of the packages |
| C80 | evaluation, printer and Go | induction on expressions; composed with C74 and C76 |
| C81 | evaluation of choices | inversion of the evaluation; meanings are unique |
| C82 | the same | induction on the selector; counterexample |
| C83 | evaluation of unions | every name of an expression that evaluates has been found |
| C84 | member access | induction on the path; counterexample |
| C85 | the visitor (`Visitor.v`) and resolution of references | children of the import rule; composed with C55 |
| C86 | the visitor, against the words of parse trees and syntax trees (`VisitorWords.v`) and the list of what is dropped (`VisitorSpec.strip_*`) | induction on expressions and types; decimal literals are unique; counterexamples |
| C87 | the loop over directives | induction on the directives |
| C88 | the same | induction on the directives and fields |
| C89 | ZserioBitSizePacked of structs, choices, unions, enums and bitmasks (`PackedSize.v`) against MarshalZserioPacked of `Schema.v` | one simulation relation between writer and prediction, over contexts equal up to the previous element; induction on depth; counterexamples by computation |
| C90, C91 | runs of Generate as a relation: any order of packages and types, any unstable sort (`Generate.v`) | uniqueness of sorted permutations; a package reads and writes only paths of its directory, so blocks commute; requests of C37 for distinct paths; counterexamples by computation |
| C92 | LoadDefaultValues over the schemas of `Schema.v` (`Defaults.v`) | induction on paths of fields for what is set and kept; on the depth bound for idempotence and termination; counterexample by computation |
| C93 | the pass over all declarations of a model (`Resolve.v`) | equivalence of the code with a relation that says what a reference means, by induction on the size of references; per place for the pass; the text of a resolved reference from the package it got; counterexample by computation |
| C94 | fields as cells of a heap, shared between templates and instances (`Capitalize.v`) | invariant over sequences of instances for who shares which cell; the effect of the pass on a cell depends on how often it is visited |
| C95 | references after CapitalizeNames against the symbol tables (`Names.v`, `Packages.v`) | completeness of the lookup of C35 for the capitalised name; characterisation of PackageGoType |
| C96 | identifiers of each declaration as name and suffix (`Names.v`) | injectivity of appending; prefix-free names; ToCamel is injective on words up to case |
| C97 | shared expressions as cells of a store, instances in an arbitrary order (`Instances.v`) | complete cells stay as they are, so induction over the order shows that the first instance decides; then C81 |
| C98 | type references as cells of a heap (`TypeArgs.v`) | invariant over the nested instantiation: only cells of template arguments are written, fresh cells are not aliased |
| C99 | objects, slices and contexts as cells of a memory, any history of calls (`ArrayObjects.v`) | a context is always replaced before it is used; invariants: references are valid, unpacked arrays have no context, slices are distinct without copies; the context after a marshalling in closed form |
| C100 | Lexer.v: the rules of the grammar as regular expressions, fixed texts and delimited texts, the longest match with the first rule winning, skipping after errors; LexerSpec.v: the texts of a rule, words, layout, characters that continue a word | derivatives and `longest` correct against the inductive meaning; a rule that matches beyond a word implies a gluing character, rule by rule (sets of characters, first characters, a scan for strings, a finite check for fixed texts); induction on the layout and on the words; literals by sets of characters and last characters |
| C101 | Parser.v: the generated loop over precedences on tokens; ParserSpec.v: the tokens of a tree, levels, which trees are proper | by induction on the tree with the levels at its left and right edges; conversely by induction on the fuel with the invariant that the loop has stopped at the right edge; composed with C100 |
| C102 | FileParser.v: recursive descent for the declarations; FileParserSpec.v: the tokens of each declaration, which files have one reading | production by production: the tokens of a tree followed by anything are read as the tree (fields: the attempt to read an offset fails because no proper prefix of the type is followed by a colon, or the constraint is not like a field); conversely a soundness predicate for each parser; composed with C100 and C101 |
| C103 | SchemaInto.v: the decoders of `Schema.v` over an object that holds something; SchemaIntoSpec.v: shape, value written over an old one, expressions that look only at stored fields, histories | simulation of the decoding of a new object by induction on depth and fields, the used object keeps what is set in the new one; equal output by the agreement of the expressions; shape preserved by every call; counterexamples by computation |
| C104 | the codecs of `Schema.v` again; ReencodeSpec.v: schemas whose values have one encoding each | one induction over the decoder (ReencodeFollow.v) for any relation between a writer and a reader that the basic types, length fields and alignment keep; instantiated with "the writer is not ahead of the reader" and with "what was written and what is left make up the input"; scalars by comparing lengths type by type (ReencodeScalars.v) |
| C105 | Compile.v: what the templates read from the syntax tree, as a schema of `Schema.v`, behind the lexer, parser and visitor; CompileSpec.v: which schema a parse tree stands for, as relations | the maps of the package hold exactly the directive of a name (uniqueness); following subtypes by induction on the chain; builtin types by the tables of C72; fields, cases and declarations by the relations; composed with C102 and C77 |
| C106 | ExprCode.v: Members.v (Evaluate), ExprPrint.v (goExpression) and GoTypes.v (Go) put together for the package of a file, as the meaning of expressions that Compile.v leaves open; ExprCodeSpec.v: values of the expressions of a parse tree over unbounded integers, with the ranges of the members | induction on the value relation: the evaluated type, the printed tree, its Go type and its value at once; monotony of the interpreter in the schema's expressions (Refine.v), so that an expression needs a value only where the spec gives one; composed with C105 and C77, and with C24 for sizes (RefineSize.v); a sum that wraps around by computation |
| C107 | Requests.v: the requests of every decoder as a list, following Schema.v; RequestsSpec.v: total, the bits left, and the conditions dense, limited, passes | a cost predicate (so many elements for each bit, so many more on failure) closed under sequencing; strings and buffers by the length of what is read, arrays by one bit for each element; induction on the nesting depth with the types of the fields read so far; the lower bound by the same induction; exceptions by computation and, for empty structs, by induction on the length |
| C108 | ExprCode: `function_ok`, `method_of`, `call_method` (functions.go.tmpl: the variable retVal, then a conversion) | PropFunctions: the value of the expression from C106's `run_int` and `run_bool`, then `gconv`; `low_bits` by arithmetic; `C108_types` from the soundness of Go's type check (`eval_class`) in the state of a receiver whose arrays have fewer than 2^63 elements; witnesses by computation on a parsed text |
| C109 | ExprCode.v: `item_values`, `enum_values` (Enum.Evaluate), `enum_kind`, `named_kind`, `label_of` (EvaluateChoice of Members.v on one label); ExprCodeSpec.v: `items_from`, `label_value`, `enum_argument` | the search for a label finds the enum of the selector (MembersFacts.choice_labels), which is the one that the parameter's type stands for (references have one meaning), and its table has the numbers of the spec by induction on the items; the Go type of the member is an enum with the same integer type; the case by induction on the cases before |
| C110 | ExprCode.v: `item_consts` (enum.go.tmpl), `to_mexpr` with the dot, `known_name` and `readable` for items, `item_fits` in `code_ok`; ExprCodeSpec.v: `BV_item` | a further case of C106's induction: the name of the enum is found (MembersFacts.sees_type), its item has the number of the spec (C109), the printed name is that of the declared constant, names of constants being distinct; an item written with a subtype is a conversion of the constant, which fits by `item_fits`; that the member has the type the item is written with from Go's rule for comparisons and distinct names of types |
