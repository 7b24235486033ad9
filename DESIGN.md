# Formal model of hsiaosiyuan0/mole in Rocq (Coq 8.16.1)

## Layout

* `rocq/theories/<Area>Model.v`  Gallina definitions, each with a comment citing the Go file and
  lines it models and the simplifications made.  No proofs.
* `rocq/theories/<Area>Spec.v`   small specifications written independently of the model.
* `rocq/theories/<Area>Proofs.v` lemmas and proofs.
* `rocq/theories/<Area>Props.v`  the property theorems only, each closed by `exact`, each followed by a
  concrete non-vacuity example and `Print Assumptions`.
* `seeded/LOG.jsonl` results of editing the model the way a bug would and rebuilding.
* `tools/props.py` generates `properties.jsonl`.

## Conventions

* Bytes are Coq's `Init.Byte.byte`, a source text is `list byte`, runes are `Z` with `EOF = -1`
  and `RuneError = 0xFFFD` as in Go.
* `uint32` offsets are unbounded `Z`/`nat` (files shorter than 4 GiB).
* Go panics and error returns are explicit values.
* A Go loop becomes structural recursion on the remaining input, or recursion on explicit fuel; in the
  latter case the statement either excludes running out of fuel or proves that it does not happen.
* Unicode tables of Go's `unicode` package other than white space are abstract parameters: theorems
  quantify over every table (ASCII is fixed where the code fixes it).
* When the faithful model falsifies the full property, a theorem named `..._refuted` exhibits the
  witness, and the part that does hold is proved as a theorem named `..._partial`.

## Plan per property

| id | model | proof method |
|----|-------|--------------|
| C01 | `Utf8Model`, `SourceModel`: decode, advance, all cursor operations as one `step` | invariant by induction over the operation list |
| C02 | same | induction on remaining bytes, specification `crlf_norm (decode_all s)` |
| C03 | same, state stack as list | induction over balanced sequences |
| C04 | `SourceModel`: `find_lf`, `ofst_line_col`, `line_col` loops | refinement to a left-to-right scan specification |
| C05 | `skip_space` | induction; specification: longest prefix |
| C06 | `Utf8Model`: `decode_rune`, `encode_rune` | arithmetic case analysis (`lia`) |
| C07 | `UtilModel`: heap list with element ids + dict, container/list semantics | refinement to association list |
| C08 | `UtilModel`: LruCache on top of it | invariant; `_refuted` for capacity and eviction |
| C09 | `UtilModel` slices | `Permutation`, induction |
| C10 | `MergeModel`: JSON-like values, map iteration order as an explicit list permutation | induction on value depth |
| C11 | same | induction; `_refuted` for keys containing dots |
| C12, C13 | `JsonCmtModel`: the state machine over runes | simulation with a segment specification; `_refuted` for escapes, multi-line comments |
| C14 | `ParseCacheModel`: interleaving transition system | inductive invariants; `_refuted` by concrete schedules |
| C15 | `DirWalkModel`: interleaving transition system | inductive invariants; `_refuted` by concrete schedules |
| C16 | `LexBuf*`: ring buffer | refinement to a queue; `_refuted` witnesses where lookahead changes the stream |
| C17 | `LexChk*`: slices with shared backing arrays | `_refuted` witness + partial without mode change below the saved depth |
| C18, C19 | `LexerModel`: the whole non-JSX lexer over the Source model | induction on remaining bytes |
| C20 | `LexerModel` strings | equivalence with an independent SV specification |
| C21 | `LexerModel` templates | induction on nesting |
| C22 | `LexerModel` names | equivalence with longest-match specification |
| C23 | `LexerModel` numbers | equivalence with a regular-grammar specification |
| C24 | `NumVal*` | `_refuted` + exactness for the correct cases |
| C25 | `LexerModel` symbols | equivalence with longest match in a punctuator table |
| C26 | `LexerModel` comments | `_refuted` + partial |
| C27 | `LexRe*`: regexps | equivalence with scan specification |
| C28 | `BinExprModel`: precedence climbing loop over operand/operator tokens | yield lemma, partial correctness, `_refuted` |
| C29 | `StmtModel`: the statement parser over tokens (declarations of functions, classes, imports and exports are parameters, filled in by `FnModel`); `StmtSpec`: statements as a relation between trees, tokens and the token that follows | one reading lemma per function, by induction on fuel; `StmtEnds`: no statement begins with `,` `)` `:`; exactness by case analysis of the end of each statement |
| C30, C31 | `StmtModel`: statement parser over label/loop contexts | induction; `_refuted` |
| C32, C33 | `CheckModel` | `NoDup` equivalences |
| C34–C37 | `SymtabModel`: scopes as a heap of records | invariants over operation histories |
| C38–C40 | `StmtModel` as for C29; `ExprModel`: the expression parser from Expression to PrimaryExpression over tokens, every call spending fuel; `ExprSpec`: the grammar as a relation between trees and tokens | one invariant per parsing function, by induction on fuel; then induction on spellings; `_refuted` by running the model |
| C50 | on top: `PanicSpec` says which token lists may make the parser panic, `PanicSafe` which trees the checks do not panic at | one lemma per parsing function (`PanicSafe`, `FnSafe`): its tree is safe and the rest of the input is a suffix; with C51 the result is a tree or an error |
| C41, C42 | `ExecModel`: stack machine | compositional induction; `_refuted` for division etc. |
| C43, C44 | `WalkModel`: generic tree walk | induction on trees |
| C45 | `DepModel` | worklist invariant, termination measure |
| C46 | `BranchModel` | induction on else-if chains, on top of C41 |
| C47 | `GraphModel` | invariants |
| C48 | `FeatModel` | bit-level reasoning |
| C49 | `EarlyModel`: the statement loop as far as directives go | invariant of the loop; induction on the body |
| C29, C38–C40, C52 in functions | `FnModel`: functions, methods, classes, async arrow functions, and the whole parser in which functions hold statements and statements functions, by iterating a world of parsers; `FnSpec`: their grammar and early errors, nested to any depth | `FnReads`: one reading lemma per function; `FnWorld`: induction on the depth of the world; `FnPlaces`, `FnProps`: what follows from a spelling |
| C53 | `FnModel`: `import_dec`, `export_dec` and what they call; `FnSpec`: the grammar of imports and exports, lax where the code is and each laxity refuted | `FnReads`: one reading lemma per function; `ModProps`: what a spelling says about names and modules, the scopes in which an export is accepted |
| C51 | `ExprModel`, `StmtModel`, `FnModel`: every call and every turn of a loop spends fuel | `ExprFuel`, `StmtFuel`, `FnFuel`: results do not change with more fuel (congruence of every function), and fuel 16·tokens+rank suffices, by induction on fuel with a rank for each function so that a call that reads no token has a lower rank; `ImportProofs`: the same for imports in expressions, by induction on how many tokens are left; `TsEndProps`: unions, intersections, conditional types and lists of TypeScript end when their entries do, by induction on fuel |
| C54 | `JsxModel`: `jsx.go`, with the parsers of expressions as parameters, tied into the whole parser by `jsx_other`; `JsxSpec`: the grammar of JSX, lax where the code is and each laxity refuted | `JsxReads`: one reading lemma per function, by induction on fuel; `JsxFuel`: where the parser can run forever; `JsxProps`: mutual induction on spellings for the places of children, induction on the depth of elements in expressions |
| C55 | `LexModel`: `jsx_txt_loop`, `read_jsx_txt`, `read_jsx_str`; `LexJsxSpec`: the value of JSX text on characters, for any table of references | `LexJsxProofs`: induction on the loop with the state of a reference being read; the leading white space by slicing the source at character boundaries; witnesses for each proviso |
| C56 | `EstreeModel`: the switch of `Convert` as a table of rows (type, scalars, fields by accessor), templates, decorators, the parts of other nodes; `EstreeSpec`: the interfaces of ESTree as tables, what a tree of the parser is, the tree that stands for it | `EstreeProofs`: each row is checked against its interface by computation, for any children; `EstreeTreeProofs`: induction on the tree; `EstreeProps`: witnesses for what is left out |
| C57 | `FlowModel`: the heap of blocks and edges, `linkEdges`, joining, grouping, and what `handleBefore` and `handleAfter` do for the expressions and statements named there; the order of Go's maps is a parameter; `FlowSpec`: what programs do as traces of names and literals, what paths are | `FlowProofs` to `FlowProg`: an invariant for parts of the heap (who owns which blocks and edges, where a part is entered, which edges still hang, which traces lead to them), preserved by joining, linking and grouping; then induction on the program; `FlowProps`: the theorem and witnesses for what is left out |
| C58 | `QueryModel`: the listener of `IsNodeContains` on the walk of `WalkModel`, `NodeTypes`, `GetParent` on a chain of contexts; `QuerySpec`: children, the way from the root to a node, the nearest of a chain | `QueryProofs`: induction on trees gives the list of nodes a walk enters until it is stopped; it lies in the tree, and is all of it where each visitor has a step for every child; induction on the chain for `GetParent`; the chain of a walk is the way from the root with the root once more; witnesses for what is missed |
| C59 | `TarModel`: `filepath.Clean` and `Join` on the parts of a path, a file system as a map from paths to files and directories, `os.MkdirAll`, writing a file, the loop of `UnTarGz` over what the tar reader gives; `TarSpec`: the place of a name step by step, what the archive says of a path | `TarProofs`: cleaning does not change where a path leads; the effect of one entry; induction on the archive; witnesses for names that lead out and missing directories |
| C60 | `OutModel`: `filepath.Split`, `Ext`, `strings.LastIndex`, `assembleOutFile`, `printJsAst` and `Process` on the file system of `TarModel`; parsing and printing are a parameter; `OutSpec`: the name of a result | `OutProofs`: cutting a name at its last dot and a path at its last slash by induction, what a path that is read leads to; `OutProps`: the theorems and witnesses for lost files |
| C61 | `TsUnionModel`: `tsUnionOrIntersectType` with its two loops as mutual recursion; operands (`tsPrimary`) are a parameter; `TsUnionSpec`: the grammar of unions of intersections and what a value of a type is | `TsUnionProofs`: acceptance gives a derivation by induction on fuel, a derivation gives the type by induction on it with invariants for the list collected so far; `TsUnionProps`: the theorems and witnesses for lost operands |
| C62 | `TsListModel`: the loops of `tsEnumBody`, `tsTuple` (with its rules), `tsTypParams`, `tsTypArgs` (without JSX and lexer modes), `tsItfExtClause`, `tsImplements`, and `tsTypParam`; entries are a parameter; `TsListSpec`: lists with commas, what is accepted beyond them, the rules for tuples | `TsListProofs`: for each loop what it accepts by induction on fuel, that all of it is accepted by induction on the list; `TsListProps`: the theorems and witnesses |
| C63 | `TsModModel`: the loop of `modifiers` over the words ahead, `tsModifierOrder`, `tsCheckLabeledOrder`, ranges; `TsModSpec`: which modifier must precede which, which exclude each other | `TsModProofs`: places of distinct words by induction, order of words as order of places, then cases on which are there; `TsModProps`: the theorems and a witness |
| C64 | `TsCondModel`: `tsConditional` and the end of `tsPrimary` tied to `TsUnionModel`; operands are a parameter; `TsCondSpec`: conditional types of an operand and three types, which trees stand for them | `TsCondProps`: induction on what is written, with C61 for the parts that have no extends, witnesses for wrong grouping and rejected types |
| C65 | `TsPostModel`: `tsTypName`, `tsArr` and where `tsPrimary` calls it; names and types are parameters; `TsPostSpec`: names after dots, brackets one after the other with or without line breaks, the names and brackets of a tree | `TsPostProps`: induction on what is written and on fuel, witnesses for brackets on a new line |
| C66 | `TsAliasModel`: `tsImportAliasRsh` on top of `TsPostModel`, without the binding; names and calls are parameters | `TsAliasProps`: case analysis with C65 for names of any length; where a statement may end is stated apart (`closed`); witnesses for the panic and for more arguments |
| C67 | `TsRefModel`: `tsRef` and `tsTypPredicate` on top of `TsPostModel`; names, types and type arguments are parameters | `TsRefProps`: case analysis with C65 for names of any length; witnesses for line breaks, for a parameter called asserts and for the panic |

## What is modelled, exactly

| code in /repo | model | extent |
|---|---|---|
| `span/source.go` | `Utf8Model`, `SourceModel` | everything |
| `util/map.go`, `lru.go`, `slice.go` | `UtilModel` | everything; the LRU lock makes every operation atomic, so a history is any serialization |
| `util/obj.go`, `sets.go`, `merge.go` | `ObjModel` | everything but `MergeMaps`' sharing of nested maps by reference |
| `util/str.go` | `JsonModel` | `RemoveJsonComments`; not `Str2bytes` and the memory tricks |
| `util/shell.go` | `TarModel` | `UnTarGz`; gzip and tar decoding give a list of entries; the file system has no links and no permissions; not `Shell`, `Download`, `FileExist` |
| `cli/ast.go` | `OutModel` | `Process`, `printJsAst`, `assembleOutFile` on the same file system; not the clipboard and what is printed |
| `util/walkdir.go` | `DirModel` | every goroutine as an interleaving transition system over a finite file tree |
| `parseutil/cache.go` | `CacheModel` | every goroutine likewise; the parse itself is an arbitrary function of the file |
| `ecma/parser/token.go`, `feature.go` | `TokenModel`, `FeatModel` | token kinds, classes, the option object and its normalisation |
| `ecma/parser/lexer.go` | `LexModel`, `LexBufModel`, `LexChkModel` | the whole lexer with JSX and TypeScript modes, its token buffer, its checkpoints; the HTML entity table and the Unicode tables are parameters |
| `ecma/parser/astutil.go` | `NumValModel` | number conversion; `strconv.ParseFloat` rounds, by assumption of the statement |
| `ecma/parser/symtab.go` | `SymtabModel` | everything |
| `ecma/parser/parser.go` | `BinModel`, `ExprModel`, `StmtModel`, `FnModel`, `LabelModel`, `EarlyModel` | expressions, patterns, statements, functions, methods, classes, imports, exports, labels, switch, directives, parameters; see below for what is left out |
| `ecma/parser/jsx.go` | `JsxModel` | everything, without TypeScript; `import(...)` and `import.meta` in expressions too, tied into the whole parser by `ImportModel`; for these C50 and C51 are proved, C39 refuted |
| `ecma/parser/ts.go` | `TsUnionModel`, `TsListModel`, `TsModModel`, `TsCondModel`, `TsPostModel`, `TsAliasModel`, `TsRefModel` | `tsUnionOrIntersectType` and `tsTyp` for types that do not begin with `new`; `tsEnumBody`, `tsTuple`, `tsTypParams`, `tsTypParam` as called there, `tsTypArgs` without JSX, `tsItfExtClause`, `tsImplements`, with what their entries are as a parameter; `tsModifierOrder`, `tsCheckLabeledOrder`; `tsTypName`, `tsRef`, `tsTypPredicate`, `tsArr`, `tsImportAliasRsh` without the binding; `tsConditional` and the end of `tsPrimary`; nothing else |
| `ecma/walk/visitor.go`, `ctx.go` | `NodeModel`, `WalkModel` | the walk of every JavaScript and JSX node |
| `ecma/estree/convert.go`, `node.go`, `jsx_node.go` | `EstreeModel` | `Convert` and `ConvertProg` on JavaScript and JSX nodes; a node is its type, its range and what its accessors give; not the branches for type information |
| `ecma/exec/vm.go` | `ExecModel` | everything; float parsing and printing are parameters |
| `ecma/astutil/astutil.go` | `BranchModel`, `DepModel`, `QueryModel` | branch selection, the dependency query, `IsNodeContains`, `GetParent` |
| `ecma/analysis/graph.go` | `GraphModel`, `FlowModel` | blocks, edges, link, join and iteration; not `DotTy` and other printing |
| `ecma/analysis/ctrlflow.go` | `FlowModel` | names, literals, binary, unary, parenthesised, conditional and spread expressions, assignments, arrays, sequences, templates, calls, `new`, member access; expression statements, `var`, blocks, `if`, `while`, `do`, `for`; not `break`, `continue`, labels, `switch`, `try`, `return`, `throw`, functions, classes, optional chains |

Left out: TypeScript (`ts.go` but for unions, intersections, conditional types, lists and the order of modifiers, `ts_ast.go`, `ts_convert.go`, `typinfo.go`) and decorators; `cli/main.go`, `wasm`, the code generators in `script`; running commands and downloading (rest of `util/shell.go`), the JSON library,
printing of graphs and nodes.

Simplifications of the parser model, each also stated where it is made:

* Tokens are a list given in advance.  The real parser asks the lexer for one token at a time and
  switches modes in between, so a theorem about the parser says what it does with the tokens it got;
  that the lexer does not lose, repeat or reorder input whatever modes are set in between is C18, C19
  and C21.
* A scope is the set of its kinds and the names it declares are left to the symbol table theorems
  (C34 to C37); errors from declaring a name are not raised by the parser model.
* Hypotheses named `rest_*` stand for what a theorem leaves out (JSX and `import(...)` or `import.meta`
  where an expression begins, calls of a function called `async`): a theorem with such a hypothesis holds
  for every behaviour of that part that meets it.  JSX meets those about what is read (`elements_read`,
  `elements_framed` in `JsxProps`), but not the one that it ends (`C51_jsx_refuted`).  `import(a)` followed
  by a semicolon does not meet `rest_framed`: it reads the semicolon, which is not in its range.  Imports in
  expressions do end and do not panic where nothing in them does: `C51_imports` and `C50_imports_partial`
  assume this of JSX and calls of `async` only.
* Where the lexer's buffer is empty the code takes a place from `Source.Pos`, which counts runes; the
  model has bytes.  They differ in sources that are not ASCII.
* `parse`, `parse_expr` iterate a world of parsers as many times as functions are nested; C51 proves
  that the iteration bound is never the reason for an answer.
* After `async (...)` turns out to be a call the code leaves a function scope open; the model does not.

## Trusted base

* Coq 8.16.1's kernel (and `coqchk`, which `vcheck` runs over the compiled files).
* The faithfulness of the hand-written models to the Go text cited in their comments.
* No axioms.  `Print Assumptions` follows each of the theorems in the `*Props.v` files and prints
  `Closed under the global context` for every one of them: no axiom of the standard library (functional
  extensionality, classical logic, proof irrelevance, UIP) is used.
* `coqchk` reports seven entries `Coq.ssr.ssrunder.Under_rel.*`.  They are the fields of a module type in
  the standard library's `ssrunder`, loaded with `ssreflect`; no theorem depends on them.
* No kernel check is switched off, there is no `Admitted`, no functor or module type, no plugin.

## What the model showed about the code

Each `_refuted` theorem is a concrete input at which the code does not do what the property says.  Besides
those, reading the code to write the model turned up the following, which no theorem is about:

* `parser.go:931` ignores the error for a repeated import; `export * from "\01"` is accepted in strict code.
* A trailing `_` in a hexadecimal number is reported as one at its beginning.
* `readJSXTxt` does not reset its entity buffer.  A lexer made with `FEAT_STRICT` does not start strict.
* `walk/ctx.go:45` indexes scopes by id; `PushVisitorCtx` shares the slice of the path.
* `a[1.5]` reads `a[1]` in the evaluator.
* In sources that are not ASCII the range of empty braces in JSX begins too early (runes for bytes).
* `isCloseTag` compares texts, so `<a.b></a.b>` and names that differ only in how they are built agree.
* Without `FEAT_CLASS_PUB_FIELD` every `var {a} = b` and every `({a: 1})` is rejected.
* `for (const a;;)`, `for (let [a];;)`, `with (a) class C {}`, `var ...a = b`, `catch (...a)` are accepted.
* `async (x) {}` and `async f(a) {}` are accepted as functions; the statement `async(x).then(y)` is rejected.
* `class A { static { return } }`, `super()` in the constructor of a class nested in one with `extends`,
  `class A { "get" a() {} }`, `({ f(this) {} })` are accepted; `({ get constructor() {} })` is rejected.
* `class A implements B, C {}` is an error, `class A implements B C {}` is not; `[a b]`, `enum E {a b}` and `<a b>` are accepted; `<a,>` and `<a = b>` as type parameters are errors, as are `Array<[a]>`, `Array<this>` and `Array<typeof a>` (C62).
* `readonly public abstract x` in a class is accepted (C63).
* `a | b extends c ? d : e` is read as `a | (b extends c ? d : e)`; `"a" extends b ? c : d` is an error (C64).
* `type t = a[]` and `type t = (a)` take a `[b]` on the next line for an index (C65).
* `import a = require;` panics, `import a = require("b", c)` is accepted (C66).
* `interface a extends if<b> {}` panics; `type t = a` takes `is(b)` on the next line for a predicate (C67).
* `Array<a | b>` is read as `Array<a>`, `type t = | a | b` as `type t = b` (C61).
* Decorators without TypeScript write to a nil pointer.
