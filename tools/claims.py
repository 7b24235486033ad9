c('C01', 'proved', 'Over every history of Peek/Ahead/AdvanceIf/Read/SkipSpace/Push/Pop/Discard.')
c('C02', 'proved', '')
c('C03', 'proved', '')
c('C04', 'proved', '')
c('C05', 'proved', 'Skips exactly Unicode White_Space; differs from ECMA-262 white space in U+0085 and U+FEFF (C05_ecma_space_refuted).')
c('C06', 'proved', '')
c('C07', 'proved', '')
c('C08', 'partial', 'Get returns the last Set under every serialization; the capacity bound holds only for distinct keys with Get ignored by eviction, and eviction never removes a key (refuted).')
c('C09', 'proved', '')
c('C10', 'proved', '')
c('C11', 'partial', 'Exact for keys without dots; with dotted keys the result depends on iteration order (refuted).')
c('C12', 'partial', 'Positions kept when there is no block comment; line count kept when there is no CRLF. False in general: CRLF in a block comment, column after a multi-line block comment, byte length (refuted).')
c('C13', 'partial', 'Exact for every document except when a string literal ends in an escaped backslash (refuted).')
c('C14', 'partial', 'Under every schedule a call only ever receives a parse of its own file and every schedule ends; when no file is requested twice nothing panics, each file is parsed once and every call gets its result. With repeated files: lost result, double parse and panic are reachable (refuted).')
c('C15', 'partial', 'Proved under every schedule, with errors and stops: at most once, parents first, no panic, termination, completeness when Walk ends without error; without failures Walk always returns. Not true: all workers end (one does), and with failures Walk can block or return early (refuted).')
c('C16', 'partial', 'For every sequence of operations from a new lexer: the tokens scanned are those delivered followed by those buffered, what each operation returns, and when it panics. That the stream is the one plain consumption delivers is refuted (the scanner consults the previous token, which lookahead changes) and proved when the buffer grows only with the scanner at the last buffered token. Refuted: with five tokens buffered the end of input overwrites the first; a token Next scanned itself is overwritten by the next Peek. Tokens taken from the buffer are proved intact under lookahead up to three tokens. Not modelled: fields a cell keeps from an earlier token.')
c('C17', 'partial', 'For every reachable lexer, everything done in between (nested checkpoints included) and every growth policy of slices: the restored lexer is at the same place and, outside TypeScript modes, delivers the same tokens, if the modes on the stack at the checkpoint are not popped or changed. Without that refuted twice (modes are shared through the slice), and in TypeScript modes refuted for <<.')
c('C18', 'partial', 'Progress, token count and end of input proved for every source, feature set and mode; termination proved when no U+FFFD or invalid byte is ahead. A template holding one loops for ever (refuted).')
c('C19', 'proved', 'For every source and whatever the parser does to the lexer modes between tokens.')
c('C26', 'partial', 'The mark is sound, and exact when no comment intervenes; in general it looks only at the last white space and the last comment (refuted).')
c('C27', 'partial', 'Every regular expression token is a slash, a body, a slash and flags, cut by its pattern and flags ranges; the body is a RegularExpressionBody unless a slash stands inside a group, and then ends at the first slash neither escaped nor in a class; literals with closed groups, complete \\u escapes and no U+FFFD are recognised; an unterminated one is an error. Not true: a slash inside a group does not end the literal, /\\u/ is rejected, flags may repeat (refuted).')
c('C20', 'partial', 'Every string token is a literal of the grammar with its value, and outside templates exactly the literals of the grammar are accepted. Not true: surrogate pairs written as escapes, a literal of only line continuations, and \\0 inside a template substitution (refuted).')
c('C25', 'proved', 'Outside JSX and TypeScript modes, where the lexer splits punctuators on purpose.')
c('C22', 'partial', 'Every name, private name and keyword token is a maximal run of name elements with its value, and every well-formed run is recognised, escaped reserved words rejected. Not true: escapes of non-identifier characters are accepted, in (and const in sloppy mode) is a plain name, escaped strict-mode keywords pass, #if is the keyword if (refuted).')
c('C21', 'partial', 'The nesting of braces and templates and the height of the mode stack are proved for every sequence of tokens; a span without a bad escape is a span of the grammar with its cooked text and raw range, and every span of the grammar without \\0 and U+FFFD is recognised. Not true: \\0 and the escape of U+FFFD are rejected, a bad \\x escape swallows the closing backquote (refuted).')
c('C23', 'partial', 'Every number token is a literal of the grammar, the longest one there, and not followed by an identifier start; every literal is recognised unless its second character is a separator. Not true: 1_000 is rejected, 018 is cut into 01 and 8, 09 is rejected, a digit may follow a radix literal or a BigInt (refuted).')
c('C24', 'partial', 'BigInt literals are exact (ParseBigint), and as operands up to 2^63; integers in another base below 2^32 and decimal literals that do not start with 0 have their mathematical value, which strconv.ParseFloat rounds. Not true: every literal written 0. is 0 (so 0.5 is 0), 0xffffffffff saturates at 2^32-1, larger BigInt operands become 0 (refuted).')
c('C34', 'partial', 'For every history: a name is found exactly when an open scope declares it, var is visible until its function is left, and what a scope declared is gone when it is left. The innermost declaration is found for names not declared both as a class (or type) and as something else; otherwise not (refuted).')
c('C35', 'partial', 'For names not declared both as a class and as something else: let/const over anything in the scope and var over a lexical declaration of its block or function are rejected, var over var and parameters is accepted, nothing panics. Not true: class beside let, var over a let of a block in between, let in a block a var was hoisted through, let then function in sloppy code; function then var is rejected although legal; a class, var, var history panics (refuted).')
c('C36', 'partial', 'Fresh ids, parent and child links, stability and balance for every history. That the table leads back to a settled scope is refuted (a temporary scope takes the last id) and proved when temporary scopes are only entered from the newest settled scope.')
c('C37', 'partial', 'Exact for twelve contexts and every history; switch exact when nothing is marked as a try block. Not true for try: blocks inside it are marked as inside a switch (refuted). Switch and loop marks rest on the parser putting no "further inside" mark on a scope itself.')
c('C28', 'partial', 'For every operand parser, chain and setting: the tree reads as the chain, chains are accepted exactly when they break none of the rules (mixing ?? with && and ||, a unary operand before **), and the tree is the one of the grammar, which is unique, exactly when the chain has no dent: a || b * c + d is grouped wrongly (refuted).')
c('C41', 'partial', 'The value is the ECMAScript value for every safe expression (literals, names, array literals, parentheses, indexes and keys that exist, includes, + - *, equality without conversion, ! and boolean && ||), and conditions hold exactly when they should for arbitrary operands of && and ||, for all environments. Refuted elsewhere: division subtracts, == does not convert, null === undefined, [1] === [1], && and || give booleans, -1 is false, a[b] reads property b, !NaN is false. Conversions between numbers and strings are parameters.')
c('C42', 'partial', 'Every expression built from supported nodes without holes pushes exactly one value whatever the stack holds, or panics; without member access it never panics. Refuted for other operators, conditional expressions and arrays with holes, and a[2**63] panics.')
c('C45', 'proved', 'For every finite graph, cyclic or not: the query ends with a measure as bound, and is true exactly when the declaration is captured by a node reachable from the function.')
c('C46', 'partial', 'For conditions the evaluator is right about: the branch that runs is always selected in else-if chains of any length; without else if, and for &&, || and the conditional operator, the selection is exact. Refuted: later branches of a chain are selected although an earlier one always runs, and the right operand of other operators is selected twice.')
c('C47', 'partial', 'Iteration from a block visits exactly the reachable blocks, each once, whatever the map order, and ends. One linking step (any map order) sends exactly the requested edges to the target, which then records their sources and forgets none; nothing else changes. Refuted for sequences: linking again leaves a recorded entry without an edge, repeats an in-edge, and joining a linked block leaves its targets with a stale source.')
c('C48', 'partial', 'Exact for every feature set and every options object, in any order, idempotent; refuted for one part: a sourceType of script does not turn modules off.')
c('C43', 'partial', 'For every JavaScript or JSX tree the walk is the tour: nested enter and leave events, children in source order, each node once with its key and the nodes above it, for recording and for arbitrary listeners. Excluded with counterexamples: function and class declarations (announced as expressions), import specifiers (visited in the wrong order), empty statements, JSX namespaced names, nested parentheses, nodes two getters share (entered twice). TypeScript nodes are not covered by the statement.')
c('C44', 'partial', 'For every tree and every rule for stopping: up to the first request the walk is the tour; after a request made on leaving, or on entering a leaf, no node is entered. A request made on entering an inner node lets exactly its first child, the first child of that and so on be entered (refuted as stated).')
c('C31', 'partial', 'At most one default clause is never rejected; adjacent default clauses always are, and nothing else is; in whole accepted programs no switch has adjacent default clauses. Refuted: two default clauses with a case clause between them are accepted.')
c('C32', 'partial', 'Exact for every list of export declarations without export * as ns (which exports a name that is not checked: refuted); exports of local names are of declared names.')
c('C33', 'partial', 'Exact for every parameter list, patterns of any depth included, except that the reserved word private is accepted in functions made strict by their own directive (refuted). The check is the same for arrow functions and methods, for which ECMAScript also forbids repeated names in sloppy code.')
c('C49', 'partial', 'Exact for bodies in which no string reads use strict after the prologue; refuted there: a statement between strings does not end the prologue.')
c('C30', 'partial', 'For every statement tree: labelled jumps name a label around them in their function, continue continues the innermost loop of its function, label chains are distinct, unlabelled jumps are rejected only where they are not allowed, and checking never panics. Refuted: breaks in a block inside try are accepted outside of loops. Beyond the property: rule-abiding programs are accepted with the right targets, except (refuted) with a label as first branch of an if with else; nested equal labels can be accepted.')
c('C29', 'partial', 'Exact for expression statements, declarations, debugger, throw, return with an argument and break/continue: they end exactly before a semicolon, a closing brace, the end or a line terminator (or a comma, closing parenthesis or colon, refuted for single statements), and only the semicolon is read. For whole accepted programs the three stray tokens are excluded: every statement without a semicolon stands before }, the end or a line terminator, and the restricted productions have no line terminator. So does every statement in functions, methods, static blocks and arrow functions, to any depth. Refuted: return;; takes the second semicolon; fields of classes and what is exported by default need no separator.')
c('C38', 'partial', 'Every assignment, update, pattern and arrow parameter in an accepted expression, and everywhere in an accepted program, has a target that is a name, a member or a pattern of such (for updates also array and object literals: [a]++ is accepted, refuted); heads of for-in and for-of are such targets, perhaps in parentheses, or one declarator; checked assignments, updates and heads never reach eval or arguments in strict code and compound ones no patterns. Refuted inside parentheses and arguments, where eval = 1 and [b] += 1 are accepted, and for heads: for (([a]) of b) is accepted. The same holds in the functions, methods and classes of a program, to any depth.')
c('C39', 'partial', 'Whatever the parser of expressions and statements accepts is a spelling of the tree it returns, for every token list, scope, feature set and amount of fuel. Conversely, written expressions of literals, names, members, calls, new, operators, assignments, arrays, objects and templates are read back node for node with their ranges, their tokens spell no other expression, and what a printer writes for any such tree is read back as that tree. So are functions, methods, classes and async arrow functions: for whole programs every function found has tokens that spell its parameters, body and members, to any depth. So are imports and exports (C53) and JSX (C54). Missing: expressions that begin with import (modelled, not proved: b * import(a) + c is read as b * (import(a) + c), and import(a) swallows a semicolon after it: both refuted; where the theorems assume rest_framed they do not cover import(a);) and calls of async; functions, classes, arrow functions, optional chains and tagged templates in the converse. Refuted: ({a: [b]}) holds a pattern, a?.()() is optional twice, new a()`b` and new new a()() group wrongly, an arrow function with a block can be an operand, {1} and {b = 1} are accepted as expressions, var ...a = b and var {1} = b as declarations, new function(){}() groups wrongly, [async () => a, b] has one element, (function () a), async a (b) => c, class { () {} }, class { a(this) {} }, class { "get" a() {} } and class { a = b c } are accepted.')
c('C40', 'partial', 'For every accepted expression and program from tokens in source order: ranges nest, siblings follow one another and ranges begin and end at edges of the tokens read (the strings of templates inside their tokens). Refuted for the tag of a template, which lies outside its parent. Within functions, methods, classes and async arrow functions, to any depth: names, parameters, bodies, keys and members follow one another within their ranges (a method without a name, accepted in classes, has none). So do the specifiers, names and module of imports and exports, and what is exported. The children of JSX elements are in C54.')
c('C50', 'partial', 'Expressions and programs, functions and classes included, end with a tree or an error whatever the tokens are, unless the source has both delete and ?., or has = or extends and besides a comma right after [ or a comma, or a string or number alone between braces or commas ({1}). Refuted: (a = [,]), (a = {1}), function f(a = [,]) {}, class a { b = [,] }, class a extends [,] {} and delete a?.() panic. Expressions that begin with import, to any depth, are in C50_imports_partial. Assumed not to panic: JSX, calls of a function called async.')
c('C52', 'partial', 'For every class and method of an object literal in an accepted program, to any depth. Refuted: get #a, set #a, get #a is accepted, as is a second constructor written with an escape; static constructor beside constructor and ["constructor"] = 1 are rejected though valid.')
c('C53', 'partial', 'Every import and export of an accepted program, wherever it stands, names a module that is a string written there and names words written there; what is imported, or exported without a module, is no reserved word; the tokens of each are a spelling of its node; exports stand at the top level only. Refuted: import {a b} from "m", import {a}, {b} from "m", import * as a, * as b from "m", import a "m", export default a b and export async () => a are accepted, imports are accepted in blocks and functions, export * as default from "m" is rejected.')
c('C51', 'partial', 'For expressions, statements, functions, methods, classes, imports and exports, nested as they may be. Expressions that begin with import too, nested to any depth (C51_imports). Calls of a function called async are assumed to end and to read a token, and so is JSX. Refuted for JSX: <a>}</a> never ends; when JSX ends is in C54. Unions, intersections, conditional types and the lists of TypeScript end when their entries do (C51_types, C51_conditional_types, C51_lists, C51_names_and_brackets).')
c('C54', 'partial', 'Elements in expressions, attributes and elements, to any depth, are a spelling of their nodes; tags match and children fill the place between them (for tokens in order where a text begins at the end of the token before it, which is what the lexer hands over). Parsing an element ends unless a token that begins no child stands where one should. Refuted: <a b=c/> and <a b={...c}/> are accepted, <a <b/> /> loses an element, <a>}</a> hangs.')
c('C55', 'partial', 'A text token covers the whole stretch up to the next brace or tag and has the value JSX gives the text, for text with at most one reference, no other & and no CR in its leading white space; text without & or leading } is always read as one token; the string of an attribute is what is between its quotes. Refuted: &lt;&gt; is read as <<, &amp;&lt; is an error, a lone & swallows the rest of the text, CR LF in leading white space stays, } is no text, references in attributes are not replaced. The table of references is a parameter.')
c('C56', 'partial', 'For every tree of the parser outside the cases below Convert returns an ESTree that conforms to the interfaces and is node by node, field by field, the one that stands for the tree; ConvertProg likewise but for sourceType. Refuted: a string literal as a substitution of a template becomes a text; a regular expression has no field regex; a directive is given by its value instead of its source; a number beyond the doubles becomes 0; the parts of a namespaced JSX name are texts; sourceType is always empty; decorators without LineCol panic. Not modelled: TypeScript; the cooked value of a bad escape in a tagged template.')
c('C57', 'partial', 'For every program of expression statements, var, blocks, if, while, do and for (with a test) over names, literals, binary, unary and conditional expressions, assignments, arrays, sequences, calls, new and member access, with any nesting and any order of map iteration: the analysis ends with a graph and every run is a path of it to the end. Refuted: an empty branch or body and a missing array element make the analysis panic; ?? as a test loses the run in which the left operand is false; || as the test of a for loop loses the runs in which the left operand holds; a literal as the test of a loop is taken for true, so what follows while (0) is reported as never reached. Missing in the positive theorem: for loops without a test; not modelled: break, continue, labels, switch, try, return, throw, functions, classes, optional chains.')
c('C58', 'partial', 'Containment: yes is right for every tree; for JavaScript and JSX trees without empty statements, namespaced JSX names and nested parentheses it is yes exactly for the nodes of the tree. Refuted: an empty statement (even in itself), the parts of a namespaced JSX name and inner parentheses are said not to be contained. Parents: exact for every chain of contexts, and for every place below the root of a walk over a tree of C43; refuted at the root, which is given as its own parent.')
c('C59', 'partial', 'Archives whose names do not lead out of the directory: nothing outside changes, broken archives included; on success (any names) the file system is exactly the old one with the directories and the last contents of the archive; archives that list directories before what is in them are unpacked into an empty directory. Refuted: a name with .. overwrites a file outside, as does an absolute name if the directory is given as the empty string; an archive without entries for its directories fails. Links on disk, modes and permissions are not modelled.')
c('C60', 'partial', 'For every path that names a file, without profiles: the source stays, the result is beside it under its name, nothing else changes, a syntax error writes nothing, no panic; results of different names differ; with profiles only the two profiles change besides. Refuted: a file that already has the name of the result is overwritten; with profiles a source called heap.out is overwritten and a syntax error panics. Links on disk and permissions are not modelled, parsing and printing are an arbitrary function.')
c('C61', 'partial', 'For every sequence of operands with | and & before a token that binds weaker than |, without a leading operator: the type is the union of the intersections written, operands in order, and all such are accepted; after a leading | this holds for one intersection. Refuted: before a token that binds as tight, as the > that closes type arguments or === after as, only the first operand is kept; after a leading operator only the last. Operands (tsPrimary) are an arbitrary function; a function type is assumed to end before anything but | and &; ranges and types that begin with new are not modelled.')
c('C62', 'partial', 'Enums, tuples and extends: every list with commas is accepted with exactly its entries (tuples: when the rules for members hold); type parameters: without a comma at the end; implements: one type; type arguments: when each begins with a name, a literal, a contextual keyword or one of < ( {, and nothing but lists with commas is accepted. In the other lists what is accepted has the entries written, in order, nothing but one comma between two, and obeys the rules for tuples. Refuted: two or more types after implements are always an error when commas are written, and accepted without; in all lists the comma between entries may be missing; type parameters may not end with a comma but may begin with one; a default without a constraint is an error; a tuple, this or typeof as a type argument is an error; type arguments may end with a comma. Type arguments are modelled without JSX and over given tokens. Entries are an arbitrary function; for type parameters and the refutation of implements it is assumed that no entry begins with a comma.')
c('C63', 'partial', 'Every selection in order is accepted with all its words read; every other is an error unless readonly stands before an access modifier and abstract is there too. Refuted: readonly public abstract is accepted, since only neighbours in the list are compared. The words come as a list, each followed by something that makes it a modifier (isField is not modelled); a word that is there twice is outside the statement.')
c('C64', 'partial', 'Every conditional type, chained and nested to any depth, whose first part is a single operand is accepted and read as written; its other parts may have | and & in any way. Refuted: in a | b extends c ? d : e only b is checked; a literal before extends is an error (likewise types in parentheses and with brackets, which the code returns at the same points). Missing: a leading operator, and tokens that bind tighter than | after a type (see C61). Operands are an arbitrary function; that typeof takes a conditional type for its operand is not modelled.')
c('C65', 'partial', 'Names: in full. Brackets: every type with brackets is accepted and read with all of them in order when no bracket follows on a new line, and nothing else is accepted but for line breaks; a bracket on a new line right after a type without parentheses is left alone. Refuted: a bracket on a new line after other brackets or after parentheses is taken for an index. Types and names are arbitrary functions.')
c('C66', 'partial', 'Every alias and every require of one string is accepted and read as written; nothing else is accepted but a require with more arguments after the string; with type only a require; a panic only where what follows the word require is no call. Refuted: import a = require; panics, require with more arguments after the string is accepted. Names and calls are arbitrary functions; the binding of the name is not modelled.')
c('C67', 'partial', 'Every reference, predicate and assertion is accepted and read as written, except a reference followed by a string that is the word is, and a predicate about a parameter called asserts; no panic when the type begins with a name. Refuted: interface a extends if<b> {} panics; is on a new line, and a name on a new line after asserts, are taken from the next statement; a string is on the next line makes a predicate; asserts is b is read as an assertion about is. Nothing else is accepted but for these. Names, types and type arguments are arbitrary functions; escapes in the word asserts are left out.')
