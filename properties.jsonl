{"id": "C01", "title": "Source cursor never loses or invents input", "statement": "After any sequence of Peek, Ahead2nd, AheadIsCh, AheadIsChs2, AdvanceIf, Read, SkipSpace, PushState, PopState and DiscardState on a Source, the not-yet-consumed text is exactly the suffix of the original text that starts at byte Ofst(), Pos() is the number of runes before Ofst(), 0 <= Ofst() <= Len(), and AheadIsEOF() holds exactly when nothing is left. Reading until EOF ends with Ofst() = Len().", "quantifier": "every byte string (valid UTF-8 or not) and every finite sequence of source operations", "why_tests_cant": "the state space of byte strings times operation sequences is unbounded; a test fixes both", "anchors": ["span/source.go: Source, Runes.advance, Source.advance, Read, Peek, SkipSpace, AdvanceIf, AheadIsEOF, Ofst, Pos"]}
{"id": "C02", "title": "Reading yields the decoded text with CR and CRLF unified to LF", "statement": "The runes returned by Read until EOF are the UTF-8 decoding of the text (U+FFFD for each malformed byte) in which every CRLF pair and every lone CR has become one LF, and nothing else has changed. Peek always returns the rune that decoding gives at the cursor and never moves it.", "quantifier": "every byte string", "why_tests_cant": "needs every interleaving of CR, LF, multi-byte and malformed sequences", "anchors": ["span/source.go: Source.Read, Source.Peek, Source.advance, Runes.advance"]}
{"id": "C03", "title": "Source checkpoints are exact and nest", "statement": "PushState followed by any balanced sequence of operations and PopState puts the cursor (Ofst, Pos, MetLineTerm, remaining text) back exactly where it was; DiscardState keeps the current position and only drops the checkpoint.", "quantifier": "every source state and every balanced operation sequence in between", "why_tests_cant": "unbounded nesting and operation histories", "anchors": ["span/source.go: PushState, PopState, DiscardState"]}
{"id": "C04", "title": "Line and column of an offset", "statement": "OfstLineCol(o) and both ends of LineCol(range) return line = 1 + the number of line breaks (LF, CR, CRLF as one) that end at or before the offset and column = the number of runes between the end of the last such break and the offset. LineCol(lo,hi) = (OfstLineCol lo, OfstLineCol hi) for lo <= hi <= Len, and positions are strictly increasing in the offset at rune boundaries. No call loops.", "quantifier": "every byte string and every pair of offsets lo <= hi <= length", "why_tests_cant": "arbitrary mixtures of terminators, offsets inside a CRLF pair, multi-byte runes", "anchors": ["span/source.go: LineCol, OfstLineCol, linefeed"]}
{"id": "C05", "title": "Whitespace skipping", "statement": "SkipSpace consumes exactly the maximal run of Unicode white space in front of the cursor and MetLineTerm() afterwards says whether that run contained a line terminator.", "quantifier": "every source state", "why_tests_cant": "every run length and every white-space rune", "anchors": ["span/source.go: SkipSpace, MetLineTerm, IsLineTerminator"]}
{"id": "C06", "title": "UTF-8 decoding and encoding agree", "statement": "Encoding any Unicode scalar value and decoding it gives the same rune and size back; decoding always consumes between 1 and 4 bytes of a non-empty input and yields U+FFFD with size 1 on any malformed prefix.", "quantifier": "every rune and every byte string", "why_tests_cant": "1.1 million scalars times every byte context", "anchors": ["span/source.go: Runes.advance (utf8.DecodeRuneInString)", "ecma/parser/lexer.go: utf8.AppendRune uses"]}
{"id": "C07", "title": "OrderedMap is an insertion-ordered map", "statement": "After any history of Set and Remove, Get(k)/HasKey(k) reflect the last Set of k not followed by Remove(k), every live key occurs exactly once in the iteration order, and the order is by the time of the last Set.", "quantifier": "every operation history over any key type with decidable equality", "why_tests_cant": "histories are unbounded", "anchors": ["util/map.go: OrderedMap.Set, Get, HasKey, Remove, Front"]}
{"id": "C08", "title": "LruCache returns what was stored and stays within its capacity", "statement": "After any history of Set, Get(k) returns the value of the last Set of k or nothing; the number of stored entries never exceeds the capacity; an evicted key is no longer reported by HasKey.", "quantifier": "every capacity, clear count and Set/Get history", "why_tests_cant": "eviction depends on the whole history", "anchors": ["util/lru.go: LruCache.Set, Get, HasKey, NewLruCache"]}
{"id": "C09", "title": "Slice helpers", "statement": "RemoveAt(i) removes exactly the element at i (as a multiset) and shrinks the slice by one; Swap exchanges exactly two positions and is an involution; Includes reports membership; Copy returns an equal slice that does not share storage.", "quantifier": "every slice and every valid index", "why_tests_cant": "all lengths and contents", "anchors": ["util/slice.go: Swap, RemoveAt, Includes, Copy"]}
{"id": "C10", "title": "Map merging does not depend on Go's random map iteration order", "statement": "MergeMap(dst, src), MergeMaps and Merge produce the same map for every iteration order the runtime may pick: at each key path a non-null source value overrides, maps merge recursively, null source values are ignored and keys absent from the source keep their value (Merge: existing keys win). Merging the same source twice equals merging it once.", "quantifier": "every pair of nested maps and every iteration order at every level", "why_tests_cant": "Go randomises map iteration, so one run is one order out of n!", "anchors": ["util/merge.go: MergeMap, MergeMaps", "util/sets.go: Merge"]}
{"id": "C11", "title": "Flattening an object", "statement": "FlattenMap contains, for every scalar leaf reachable by a key path, an entry under the dot-joined path with that value, and nothing else; the result does not depend on the map iteration order.", "quantifier": "every nested map/array value and every iteration order", "why_tests_cant": "unbounded nesting, random iteration order", "anchors": ["util/obj.go: WalkObj, FlattenMap, GetByPath"]}
{"id": "C12", "title": "Comment stripping keeps error locations meaningful", "statement": "RemoveJsonComments keeps every line break at its line number (same number of lines) and keeps text outside comments at the same column, i.e. comments are replaced by equally long blanks.", "quantifier": "every UTF-8 input", "why_tests_cant": "any placement of comments, terminators and multi-byte runes", "anchors": ["util/str.go: RemoveJsonComments"]}
{"id": "C13", "title": "Comment stripping removes exactly comments and trailing commas", "statement": "On a document made of plain text, string literals and comments, the output is the document with the comments blanked and with commas directly before a closing bracket blanked; string literals come out unchanged even when they contain comment markers; a document without comments and trailing commas is returned unchanged.", "quantifier": "every sequence of text, string-literal and comment segments", "why_tests_cant": "unbounded segment sequences, every escape inside strings", "anchors": ["util/str.go: RemoveJsonComments"]}
{"id": "C14", "title": "ParseCache gives every caller the parse of its file", "statement": "With any number of concurrent callers, each call for file f eventually receives the result of parsing f, no two callers receive different results for the same file, and a file is parsed once.", "quantifier": "every number of callers, every file assignment and every interleaving of their atomic steps", "why_tests_cant": "schedules", "anchors": ["parseutil/cache.go: ParseCache.Parse"]}
{"id": "C15", "title": "DirWalker visits each entry once and terminates", "statement": "Walk calls the handler exactly once for every file system entry below the root when it is not stopped, whatever the number of workers and the schedule, and Walk returns only when no entry is pending; all workers end.", "quantifier": "every directory tree, number of workers and schedule", "why_tests_cant": "schedules", "anchors": ["util/walkdir.go: DirWalker"]}
{"id": "C16", "title": "Token lookahead behaves as a FIFO queue", "statement": "Peek, Peek2nd, PeekGrow and Next together deliver the token stream in order, each token exactly once, no matter how lookahead and consumption are mixed, as long as at most five tokens are buffered; one more write panics instead of corrupting the stream.", "quantifier": "every sequence of lookahead and consume operations", "why_tests_cant": "the ring buffer wraps after five tokens; interleavings are unbounded", "anchors": ["ecma/parser/lexer.go: TokensBuf, Lexer.Peek, Peek2nd, PeekGrow, Next, advance, readTok"]}
{"id": "C17", "title": "Lexer checkpoints restore the lexer", "statement": "PushState, any amount of lexing, PopState: the lexer then delivers the same tokens as it would have delivered at the PushState.", "quantifier": "every lexer state and every sequence of operations in between", "why_tests_cant": "histories; aliasing between the saved and the live state", "anchors": ["ecma/parser/lexer.go: LexerState, PushState, PopState, PushMode, PopMode, AddMode, EraseMode"]}
{"id": "C18", "title": "Lexing terminates and makes progress", "statement": "Every request for a token returns; unless it reports the end of input or an error it has consumed at least one byte, so a source of n bytes yields at most n tokens.", "quantifier": "every byte string, feature set and lexer mode", "why_tests_cant": "termination on all inputs", "anchors": ["ecma/parser/lexer.go: lexTok, readTokWithComment, readTplChs, readRegexp, readStr, readNum, readName"]}
{"id": "C19", "title": "Token ranges tile the source", "statement": "Each successfully lexed token has a range lo < hi inside the source, ranges of successive tokens do not overlap and increase, and the text between two successive tokens consists of white space and comments only.", "quantifier": "every source text and feature set", "why_tests_cant": "all token sequences", "anchors": ["ecma/parser/lexer.go: newToken, finToken, lexTok", "ecma/parser/token.go: Token"]}
{"id": "C20", "title": "String literal values", "statement": "The value of a string token is the ECMAScript SV of the literal: characters stand for themselves, line continuations vanish, each escape sequence denotes its character; the literal ends at the first unescaped matching quote; an unterminated literal is reported.", "quantifier": "every string literal", "why_tests_cant": "escape sequences combine freely; length unbounded", "anchors": ["ecma/parser/lexer.go: readStr, readEscapeSeq, readOctalEscapeSeq, readHexEscapeSeq, readUnicodeEscapeSeq, readCodepoint, readHex4Digits, readLineTerm"]}
{"id": "C21", "title": "Template literals are split at the right places", "statement": "A template is cut into spans at ${ and the matching }, whatever is nested inside the substitutions (blocks, objects, strings, other templates); the cooked text of a span is its TV; the mode stack is back at its height after the closing backquote.", "quantifier": "every nesting of templates", "why_tests_cant": "unbounded nesting depth", "anchors": ["ecma/parser/lexer.go: readTplSpan, readTplChs, PushMode, PopMode, aheadIsTplStart"]}
{"id": "C22", "title": "Identifiers and keywords", "statement": "An identifier token extends over the longest run of identifier characters; its name is the source text with unicode escapes replaced; reserved words are never delivered as plain names and an escaped reserved word is rejected; every name delivered consists of identifier characters only.", "quantifier": "every source text", "why_tests_cant": "all identifiers", "anchors": ["ecma/parser/lexer.go: readName, readIdStart, readIdPart, readUnicodeEscape", "ecma/parser/token.go: Keywords, StrictKeywords"]}
{"id": "C23", "title": "Numeric literals are recognised by the grammar", "statement": "A numeric token is produced exactly for the texts that the ECMAScript NumericLiteral grammar derives (separators only between digits, radix prefixes followed by digits, suffix n only on integers), extends as far as possible and is not directly followed by an identifier start or a digit.", "quantifier": "every source text and feature set", "why_tests_cant": "all digit strings", "anchors": ["ecma/parser/lexer.go: readNum, readDecimalNum, readDecimalDigits, readBinaryNum, readOctalNum, readHexNum, readExpPart, bigintSuffix"]}
{"id": "C24", "title": "Numeric literal values", "statement": "NodeToFloat/ParseFloat of a numeric literal returns its mathematical value (rounded to float64); ParseBigint is exact.", "quantifier": "every numeric literal", "why_tests_cant": "all digit strings", "anchors": ["ecma/parser/astutil.go: ParseFloat, ParseBigint, NodeToFloat"]}
{"id": "C25", "title": "Punctuators: longest match", "statement": "At a punctuator the lexer takes the longest ECMAScript punctuator that is a prefix of the remaining text (with the ?. digit exception), and consumes exactly its characters.", "quantifier": "every remaining text", "why_tests_cant": "all continuations", "anchors": ["ecma/parser/lexer.go: readSymbol"]}
{"id": "C26", "title": "Tokens know whether a line break precedes them", "statement": "A token is marked as preceded by a line terminator exactly when the white space and comments between the previous token and it contain one (comments count when they span lines or are ended by a line break).", "quantifier": "every sequence of white space and comments between two tokens", "why_tests_cant": "unbounded trivia sequences", "anchors": ["ecma/parser/lexer.go: lexTok, readMultilineComment, readSinglelineComment, finToken", "span/source.go: SkipSpace"]}
{"id": "C27", "title": "Regular expression literals end at the right slash", "statement": "A regular expression literal extends to the first slash that is neither escaped nor inside a class; pattern and flags ranges cut the literal accordingly; a line terminator or the end of input before it is an error.", "quantifier": "every regular expression body", "why_tests_cant": "unbounded bodies", "anchors": ["ecma/parser/lexer.go: readRegexp, isLegalFlag"]}
{"id": "C28", "title": "Binary operators group by precedence and associativity", "statement": "A chain of operands and binary operators is parsed into the unique tree that respects the ECMAScript precedence levels and associativity, and the in-order reading of the tree is the chain.", "quantifier": "every operator chain of any length", "why_tests_cant": "exponentially many chains; errors only show from three precedence levels on", "anchors": ["ecma/parser/parser.go: binExpr", "ecma/parser/token.go: TokenKinds, IsBin"]}
{"id": "C29", "title": "Automatic semicolon insertion", "statement": "A statement that needs a terminator is accepted exactly when the next token is a semicolon, a closing brace, the end of input or follows a line terminator; a present semicolon is consumed, nothing else is; return/throw/break/continue/postfix operators respect the no-line-terminator restriction.", "quantifier": "every token following a statement", "why_tests_cant": "all following contexts", "anchors": ["ecma/parser/parser.go: advanceIfSemi, isExprOpening, retStmt, throwStmt, brkStmt, contStmt, updateExpr"]}
{"id": "C30", "title": "break and continue target enclosing statements", "statement": "In an accepted program every labelled break/continue names a label of an enclosing statement inside the same function, an unlabelled break is inside a loop or switch and an unlabelled continue inside a loop of the same function; labels of the same chain are distinct.", "quantifier": "every statement tree", "why_tests_cant": "unbounded nesting", "anchors": ["ecma/parser/parser.go: labelStmt, brkStmt, contStmt", "ecma/parser/symtab.go: HasLabel, GetLabel, EnterScope"]}
{"id": "C31", "title": "A switch has at most one default clause", "statement": "A switch statement with two or more default clauses is rejected and one with at most one is not rejected for this reason.", "quantifier": "every sequence of case/default clauses", "why_tests_cant": "clause lists of any length", "anchors": ["ecma/parser/parser.go: switchStmt"]}
{"id": "C32", "title": "Duplicate exports are rejected", "statement": "A module is rejected because of duplicate exports exactly when two export entries export the same name.", "quantifier": "every list of export declarations", "why_tests_cant": "unbounded lists", "anchors": ["ecma/parser/parser.go: checkExp"]}
{"id": "C33", "title": "Parameter list early errors", "statement": "A parameter list with duplicate names is rejected exactly when the function is strict or the list is not simple; eval/arguments and reserved names are rejected in strict functions; a use-strict directive with a non-simple list is rejected.", "quantifier": "every list of parameter names", "why_tests_cant": "unbounded lists", "anchors": ["ecma/parser/parser.go: checkParams, isProhibitedName, collectNames"]}
{"id": "C34", "title": "Name resolution finds the innermost declaration", "statement": "BindingOf(name) returns the declaration of the innermost enclosing scope that declares the name, for every history of entering scopes, leaving scopes and declaring; var declarations are visible in the whole enclosing function, let/const only in their block.", "quantifier": "every history of scope operations", "why_tests_cant": "histories", "anchors": ["ecma/parser/symtab.go: BindingOf, AddLocal, UpperFn, EnterScope, LeaveScope"]}
{"id": "C35", "title": "Redeclarations are rejected", "statement": "Declaring with let/const/class a name that the same scope already declares, and declaring with var a name that an enclosing block up to the function declares lexically, is rejected; var redeclaring var or a parameter is accepted.", "quantifier": "every declaration history", "why_tests_cant": "order of declarations matters", "anchors": ["ecma/parser/symtab.go: AddLocal, CheckRefDup"]}
{"id": "C36", "title": "Scope table is a tree with unique ids", "statement": "Entering and leaving scopes in any balanced order gives every settled scope a fresh id, the id table maps it back to that scope, the parent link leads to the scope that was current, and after leaving the same scope is current as before.", "quantifier": "every balanced history of enter/leave", "why_tests_cant": "histories", "anchors": ["ecma/parser/symtab.go: EnterScope, LeaveScope, NewSymTab"]}
{"id": "C37", "title": "Scope flags are inherited along the nesting rules", "statement": "A scope is marked as inside a loop, switch, try, function, class, strict code, async or generator code exactly when a scope on its parent chain introduced that context and no function boundary that ends it lies in between.", "quantifier": "every scope nesting", "why_tests_cant": "unbounded nesting", "anchors": ["ecma/parser/symtab.go: EnterScope, ScopeKind"]}
{"id": "C38", "title": "Assignment targets", "statement": "An assignment, update or for-in/of head is accepted only if its target is an identifier, a member expression or (for plain assignment) a destructuring pattern, possibly parenthesised; eval/arguments are not assignable in strict code.", "quantifier": "every expression tree", "why_tests_cant": "unbounded nesting of parentheses and patterns", "anchors": ["ecma/parser/parser.go: isSimpleLVal, argToParam"]}
{"id": "C39", "title": "Expressions parse back to the tree they were printed from", "statement": "Parsing the token sequence of a fully parenthesised-where-needed expression returns the expression.", "quantifier": "every expression tree of the modelled grammar", "why_tests_cant": "infinitely many trees", "anchors": ["ecma/parser/parser.go: expr, seqExpr, assignExpr, condExpr, binExpr, unaryExpr, updateExpr, callExpr, memberExpr, primaryExpr"]}
{"id": "C40", "title": "Node ranges nest", "statement": "The range of every node covers the ranges of its children, siblings are disjoint and in source order, and every range starts and ends at token boundaries.", "quantifier": "every accepted program of the modelled grammar", "why_tests_cant": "all programs", "anchors": ["ecma/parser/parser.go: rng, finRng", "ecma/parser/lexer.go: Rng, FinRng"]}
{"id": "C41", "title": "Constant evaluation agrees with the language", "statement": "The value the expression evaluator computes for a supported expression is the ECMAScript value of the expression under the given variables.", "quantifier": "every expression and every variable environment", "why_tests_cant": "infinitely many expressions", "anchors": ["ecma/exec/vm.go: ExprEvaluator"]}
{"id": "C42", "title": "Constant evaluation keeps its stack aligned", "statement": "Evaluating any supported expression pushes exactly one value and never pops an empty stack, whatever was on the stack before.", "quantifier": "every expression tree and every prior stack", "why_tests_cant": "compositionality over all subtrees", "anchors": ["ecma/exec/vm.go: ExprEvaluator"]}
{"id": "C43", "title": "AST walking enters and leaves every node exactly once, properly nested", "statement": "A walk with default visitors calls the enter listeners of every node before, and its leave listeners after, the listeners of all of its children; children are visited in source order; nothing is visited twice.", "quantifier": "every syntax tree", "why_tests_cant": "infinitely many trees", "anchors": ["ecma/walk/ctx.go: VisitNode, VisitNodes, CallListener", "ecma/walk/visitor.go"]}
{"id": "C44", "title": "Stopping a walk", "statement": "After a listener calls Stop no further node is entered, and the walk returns.", "quantifier": "every tree and every stop position", "why_tests_cant": "every prefix of every walk", "anchors": ["ecma/walk/ctx.go: Stop, VisitNodes, VisitNode"]}
{"id": "C45", "title": "Function dependency queries are reachability", "statement": "IsFnDepsOnNode answers true exactly when the node is reachable from the function through the dependency graph, on cyclic graphs too, and always terminates.", "quantifier": "every finite dependency graph", "why_tests_cant": "all graphs, cycles", "anchors": ["ecma/astutil/astutil.go: IsFnDepsOnNode, BuildFnDepGraph"]}
{"id": "C46", "title": "Constant branch selection keeps the branches that can run", "statement": "SelectTrueBranches returns exactly the branches whose condition does not evaluate to false given the variables, stopping at the first branch that always runs.", "quantifier": "every if/else chain", "why_tests_cant": "unbounded chains", "anchors": ["ecma/astutil/astutil.go: SelectTrueBranches, NodeToSwitchBranches"]}
{"id": "C47", "title": "Control flow graph edges are consistent", "statement": "Every edge recorded as outgoing of its source block is recorded as incoming of its target and vice versa; linking does not create duplicate edges; iterating the blocks visits exactly the reachable blocks once.", "quantifier": "every sequence of graph operations", "why_tests_cant": "all graphs", "anchors": ["ecma/analysis/graph.go: link, linkEdges, IterBlock, Block, Edge"]}
{"id": "C48", "title": "Feature options are normalised consistently", "statement": "After merging a JSON object of options and setting up a parser, a feature is on exactly when the options say so: the switches typescript, jsx, dts and strict decide when given and change nothing when absent, the source type decides about modules, import and export declarations come with modules, top-level await needs async functions, and no other feature changes. Options that do not contradict each other can be merged in any order, and merging or setting up again changes nothing.", "quantifier": "every feature set and every object of options", "why_tests_cant": "2^42 feature sets times all option objects", "anchors": ["ecma/parser/feature.go", "ecma/parser/parser.go: ParserOpts.MergeJson, Setup"]}
{"id": "C49", "title": "Directive prologue decides strictness", "statement": "A function body or program in sloppy code becomes strict exactly when the strings it begins with include a use-strict directive; in strict bodies, and only there, strings with legacy octal escapes are rejected, before the directive as after it; code inside strict code is strict.", "quantifier": "every sequence of statements of a body", "why_tests_cant": "bodies of any length and every position of the directive", "anchors": ["ecma/parser/parser.go: stmts, isDirective, enterStrict"]}
{"id": "C50", "title": "Parsing never panics", "statement": "Whatever the tokens are, parsing an expression or a program returns a tree or reports a syntax error; it does not crash.", "quantifier": "every token list, scope and feature set", "why_tests_cant": "crashes hide in rare combinations of constructs", "anchors": ["ecma/parser/parser.go: expr, argToParam, checkDefaultVal, unaryExpr, tplExpr"]}
{"id": "C51", "title": "Parsing ends, and nests in proportion to the input", "statement": "Parsing an expression or a program ends whatever the tokens are, with a tree or an error; its calls nest, loops counted as calls, at most in proportion to the number of tokens, and what it returns does not depend on how much deeper they might nest.", "quantifier": "every token list, scope and feature set", "why_tests_cant": "a loop that reads nothing, or a call that does, shows only on the one input that reaches it; tests cannot bound the depth for all inputs", "anchors": ["ecma/parser/parser.go: expr, binExpr, callExpr, memberExpr, argList, arrLit, objLit, tplExpr, stmts, switchStmt, varDecStmt, bindingPattern"]}
{"id": "C52", "title": "Members of classes and object literals are well formed", "statement": "In an accepted program every getter has no parameter and every setter exactly one that is no rest parameter; no constructor is an accessor, async or a generator; nothing static is called prototype and no field constructor; a class has at most one constructor; and no private name is declared twice but by a getter and a setter, both static or neither.", "quantifier": "every program, every class and object literal at any depth", "why_tests_cant": "members in every combination and order, in classes nested in functions nested in classes", "anchors": ["ecma/parser/parser.go: classDec, classBody, classElem, field, method, objProp"]}
{"id": "C53", "title": "Imports and exports are read as written", "statement": "In an accepted program every import and export declaration is a spelling of the node returned for it: its parts are separated by commas, the module comes after the word from and is a string literal, names are words of the text, and no reserved word is bound by an import or exported without a module it comes from; exports and imports stand only at the top level of the program, not in blocks, functions or classes.", "quantifier": "every program, every import and export in it", "why_tests_cant": "lists of names of any length in every combination of default, namespace and named parts, at every place a statement can stand", "anchors": ["ecma/parser/parser.go: importDec, importNamedOrNS, importNamed, importNS, importSpec, exportDec, exportFrom, exportNamed, exportSpec, identWithKw, addExp, stmt"]}
{"id": "C54", "title": "JSX elements are read as written", "statement": "In an accepted program every JSX element is a spelling of the node returned for it: its opening and closing tags have the same name, attributes have a name and either no value, a string, an expression in braces or an element, children are text, white space, expressions, spreads and elements, in the order they are written, and their places fill the space between the two tags without gap or overlap; no element that is written is missing from the tree. Parsing an element ends whatever the tokens are.", "quantifier": "every program, every element in it, at any depth of elements in expressions in elements", "why_tests_cant": "elements, attributes and children of any number and depth; where the children lie shows only for all of them together", "anchors": ["ecma/parser/jsx.go: jsx, jsxOpen, jsxClose, jsxName, jsxMember, jsxNsExpr, jsxAttr, jsxAttrs, jsxExpr, jsxWsTxt, isCloseTag", "ecma/parser/ts.go: tsTryTypArgs, newTypInfo", "ecma/parser/parser.go: unaryExpr, primaryExpr, spread"]}
{"id": "C55", "title": "The text between JSX tags has the value JSX gives it", "statement": "Among the children of an element, everything from where the last token ended to the next brace or tag comes as one text token whose place is exactly that stretch. Its value is the text with line ends as LF, each character reference of the table (&name;) replaced by what it stands for and everything else, a lone & included, as it is written. The string of an attribute is what lies between its quotes, references replaced in the same way.", "quantifier": "every text, every table of references, every lexer between tags", "why_tests_cant": "texts of any length with references at any place", "anchors": ["ecma/parser/lexer.go: readJSXTxt, readJsxStr, readTokWithComment, SkipSpace", "ecma/parser/html_entity.go: HTMLEntities", "span/source.go: Read, RngText"]}
{"id": "C56", "title": "Converting a syntax tree to ESTree gives the ESTree that stands for it", "statement": "For every syntax tree the parser builds, the conversion neither panics nor returns nil, and its result is an ESTree: every node is of an interface of ESTree and has all its fields, each holding a value or nodes of the kinds the interface allows. It is the right one: node by node it has the type, the range, the line and column, the operator, name, flags and values of the node it stands for, and in each field what the tree has there, in order, with a hole or nil where the tree has none; parentheses alone disappear.", "quantifier": "every tree of the parser in every source, with and without line and column", "why_tests_cant": "trees of any depth and shape, lists of any length", "anchors": ["ecma/estree/convert.go: ConvertProg, Convert, tplLiteral, importSpec, exportAll, exportNamed, exportDefault, locWithDecorator, ident", "ecma/estree/node.go", "ecma/estree/jsx_node.go"]}
{"id": "C57", "title": "Every run of a program is a path of its control flow graph", "statement": "For every program the control flow analysis ends with a graph and without a panic. Whatever the program does when it runs, evaluating names and literals in some order until it ends, the graph has a path from its start to its end that meets the same names and literals in the same order, along edges that are not cut and through blocks that are not reported as unreachable. So code that can run is never reported as dead. The order in which Go iterates over maps makes no difference.", "quantifier": "every program, every outcome of every test in every run, every iteration order of the maps", "why_tests_cant": "programs of any depth and length, loops that run any number of times; the order of Go's maps differs from run to run", "anchors": ["ecma/analysis/ctrlflow.go: Analysis.Analyze, handleBefore, handleAfter, popExprsAndLink", "ecma/analysis/graph.go: Block.join, newJmpOut, newLoopIn, mrkSeqOutAsLoop, IsInCut"]}
{"id": "C58", "title": "Questions about the place of a node in a tree are answered rightly", "statement": "Asking whether a node contains another is answered yes exactly when the other is the node itself or one below it. Asking, from a place in a walk, for the parent of some types gives the nearest node above that has one of them, nothing if there is none or if a node of one of the barrier types lies before it, and with it the context of the node below it on the way.", "quantifier": "every tree, every two nodes, every place in a walk, all lists of types", "why_tests_cant": "trees of any depth and shape; a node that the walk misses shows only when it is the one asked for", "anchors": ["ecma/astutil/astutil.go: IsNodeContains, GetParent", "ecma/walk/visitor.go: NodeTypes, AddBeforeListener", "ecma/walk/ctx.go: VisitNode, ParentNode, Stop"]}
{"id": "C59", "title": "Unpacking an archive writes its files into the directory given and nowhere else", "statement": "Unpacking a tarball into a directory changes nothing outside of that directory, but for making the directory itself, even when the archive is broken or an error is returned. If no error is returned every file of the archive is in the directory at the place its name says with the content the archive last gives it, every directory of the archive exists, and nothing else changes. An archive of files and directories is unpacked without error into an empty directory.", "quantifier": "every archive, every directory, every state of the file system", "why_tests_cant": "archives of any length, names with any parts such as . and .., entries that repeat or contradict each other, archives that break off anywhere", "anchors": ["util/shell.go: UnTarGz"]}
{"id": "C60", "title": "Printing the tree of a file leaves the file and all others as they are", "statement": "Asked for the syntax tree of a file, the command line tool writes it to a file in the same directory, whose name is that of the source with _ast before its last dot (at its end without a dot). The source is never changed, two sources never share a result, and no file that exists is changed. When the source has a syntax error nothing is written and the tool ends without a panic.", "quantifier": "every path that names a file, every directory the tool runs in, every state of the file system", "why_tests_cant": "paths with any parts such as . and .. and repeated slashes, names with any number of dots or none; an overwritten file shows only with the name that hits it", "anchors": ["cli/ast.go: AstInspector.Process, printJsAst, assembleOutFile"]}
{"id": "C61", "title": "A type written with | and & is the union of the intersections written", "statement": "A TypeScript type written as operands with | and & between them is read as the union of the intersections written: & binds tighter than |, no operand is lost, added or moved, and a leading | or & changes nothing. Whatever is written so is accepted, wherever a type may stand.", "quantifier": "every sequence of operands and operators, every kind of operand, every token that may follow", "why_tests_cant": "operators alternate in any order and number; whether operands are kept depends on the token after the type, so each place where a type may stand is a case of its own", "anchors": ["ecma/parser/ts.go: Parser.tsTyp, tsUnionOrIntersectType", "ecma/parser/token.go: TokenKinds"]}
{"id": "C62", "title": "Lists of TypeScript have the entries written between the commas", "statement": "The members of an enum and of a tuple, type parameters and arguments, the types an interface extends and those a class implements are lists with commas. Every such list is accepted and read with the entries written, in order, none lost or added; enums, tuples and type parameters may end with a comma. Nothing else is accepted: two entries without a comma between them are an error. In a tuple no required member follows an optional one, and all members have labels or none. A type parameter may have a constraint and a default, each without the other.", "quantifier": "every list of any length, every kind of entry", "why_tests_cant": "lists of any length and every mix of commas, missing and doubled ones included; each kind of list has its own loop", "anchors": ["ecma/parser/ts.go: Parser.tsEnumBody, tsTuple, tsTypParams, tsTypParam, tsTypArgs, tsItfExtClause, tsImplements"]}
{"id": "C63", "title": "The modifiers of a class member must stand in the order of TypeScript", "statement": "Before a class member any selection of an access modifier, abstract, static, override, readonly and declare, each once, is accepted exactly when it is in order: the access modifier before abstract, static, override and readonly; abstract before override; static before override and readonly; override before readonly; static not with abstract, declare not with override; before a static block only static.", "quantifier": "every selection and order of modifiers, every place in the source, comments and spaces of any length between", "why_tests_cant": "some two thousand orders, of which tests hold a handful; a wrong one is accepted only when three modifiers stand together", "anchors": ["ecma/parser/ts.go: Parser.tsModifierOrder, tsCheckLabeledOrder", "ecma/parser/parser.go: Parser.modifiers, classElem", "span/source.go: Range.Before, Range.Empty"]}
{"id": "C64", "title": "A conditional type is read as written", "statement": "A type followed by extends, a type, ?, a type, : and a type is read as the conditional type of these four, where the first is all that is written with | and & before extends, whatever its operands are; the last may be conditional again and takes all that follows. Every such type is accepted.", "quantifier": "every nesting and chain of conditional types, every kind of operand", "why_tests_cant": "chains and nestings of any depth; which part of a union is checked shows only in the tree", "anchors": ["ecma/parser/ts.go: Parser.tsConditional, tsPrimary, tsTyp, tsUnionOrIntersectType"]}
{"id": "C65", "title": "Names with dots and brackets after a type are read as written", "statement": "In a type, names joined by dots are read as one qualified name that has all of them in order, and brackets after a type, empty (an array) or with a type inside (an index), are all applied to it from left to right. Every such name and type is accepted and nothing else is. A bracket that begins a line belongs to the next statement, not to the type before it.", "quantifier": "every number of names and brackets, every type inside brackets, every layout in lines", "why_tests_cant": "any number of dots and brackets in any mix; where lines break matters only between certain tokens", "anchors": ["ecma/parser/ts.go: Parser.tsTypName, tsArr, tsPrimary"]}
{"id": "C66", "title": "Import aliases of TypeScript are read as written", "statement": "import a = followed by a name with or without dots is an alias of that name, and import a = require(...) with exactly one string in the parentheses is a require of it, each with a semicolon or where one may be left out; with the word type only a require is accepted. Anything else is an error and never a panic.", "quantifier": "every name with any number of dots, every list of arguments, everything that may follow", "why_tests_cant": "any number of dots and arguments, and every expression that may follow the word require, calls or not", "anchors": ["ecma/parser/ts.go: Parser.tsImportAliasRsh, tsTypName", "ecma/parser/parser.go: Parser.callExpr, advanceIfSemi"]}
{"id": "C67", "title": "References to types and type predicates are read as written", "statement": "In a type, a name with or without dots, and with type arguments or without, is a reference to that name. A name followed on the same line by is and a type is a predicate about it; asserts followed on the same line by a name or this is an assertion about it, with is and a type or without. Anything else is an error and never a panic.", "quantifier": "every name, every type and list of type arguments, every layout in lines, whatever follows", "why_tests_cant": "names of any length and every token that may follow, keywords included; where lines break matters only between certain tokens", "anchors": ["ecma/parser/ts.go: Parser.tsRef, tsTypPredicate, tsTypName, tsPredefOrRef, tsItfExtClause"]}
