# Formal model of go-vimlparser

The code is a hand-translated Go version of vim-vimlparser: a line reader, a
tokenizer, a recursive descent expression parser, a command parser with a stack
of open blocks, an exporter from the internal tree to the public AST, an AST
walker, an S-expression compiler and an expression printer.  Everything from the
bytes delivered by the `io.Reader` to the public AST (and from the public AST to
the output of the compiler and the printer) is modelled as computable Gallina
functions, one per Go function, each citing its file and lines.

## Representation choices

* **Text.**  A Go string produced by the parser is a concatenation of
  `string(rune)`.  The model's `text` is the list of code points (`list N`); the
  bytes are its UTF-8 encoding.  Input is a list of bytes, decoded with the rules
  of Go's `range` over a string (invalid byte -> U+FFFD, width 1).
* **Reader.**  `StringReader.buf[i:]` is a list of items (a code point or a line
  end, with its position); the cursor `i` is represented by that suffix.  The
  index-based methods of `StringReader` are modelled separately and proved
  equivalent to the suffix-based ones.
* **Outcome.**  Every parser function returns `Ok`, `PErr` (a Go
  `panic(*ParseError)`), `Panic` (any other Go panic: index out of range, nil
  dereference, failed type assertion, str2nr overflow, ...) or `OutOfFuel`.
  `recover` in ParseFile/ParseExpr maps the first two panics to errors.
* **Fuel.**  Recursion of `parse_expr1` and the loops take fuel computed from the
  length of the remaining input; a theorem excludes `OutOfFuel` for every input.
* **Mutable trees.**  The parser opens a block by appending its node to its
  parent and pushing it; only the innermost open node is ever appended to.  The
  model keeps a stack of open frames and attaches a frame to its parent when it
  is closed (or, for ElseIf/Else/Catch/Finally, to its If/Try).  `HeapParser` is a second
  model of the same functions with a store of nodes, pointers and assignments to fields
  as in the Go code; C73 proves that both give the same result for every input.
* **Regular expressions** in `vimlfunc.go` are boolean functions where the parser uses
  them; `RegexTable` holds the table itself, and C55 proves that each function answers as
  the Go pattern of the table does.

## Files

* Model: `Base Utf8 CharClass Reader Vnode Tokenizer ExprParser CmdTable CmdParser
  HeapParser Token Ast Export Api RefCompiler Compiler Walk Printer CompilerObj Scanner ScannerErr IndexReader Cli CliOut Json RegexTable` (and `Pos.String` in `PropMessage`).
* Specifications (no reference to the parser functions): `Grammar` (expressions),
  `Head` and `CmdSpec` (the text of a command line), `Script` (block structure),
  `Places` (positions), `Nodes` (types, texts and sub-nodes), `Visits` (traversal),
  `Sexpr` (compiler output), `Format` (fmt.Fprintf without arguments), `Join` (joined lines, trees without positions), `Sequel` (a text behind another),
  `Fault` (what each error message says),
  `Written` (texts of expressions), `Extent` (how far the text of a command goes),
  `WrittenScript` (texts of scripts), `Rest` (what may follow an expression),
  `JsonSpec` (the JSON texts of RFC 8259 and the values they denote), `JsonFields` (the fields of the Go structs),
  `Regex` (when a text matches a regular expression; Go's and Vim's notation for them).
* Proofs: the other files.  `Prop*.v` hold the property theorems named in
  MANIFEST.json, each with an `Example` that meets its hypotheses.
* `Tests.v`: the repository's own test scripts evaluated in the model.

## Trusted base

* The kernel of Coq 8.16.1 (including `vm_compute`).  `Print Assumptions` is run below
  every property theorem and prints "Closed under the global context" for all of
  them: no axiom is used, not even one of the standard library.  A listing of the
  whole loaded context, such as coqchk makes, also names the seven fields of
  `Coq.ssr.ssrunder.Under_rel` (`Under_rel`, `Under_rel_from_rel`, `Under_relE`,
  `under_rel_done`, `Over_rel`, `over_rel`, `over_rel_done`): that is a sealed module of
  the standard library, loaded by its `List` and `Lia`, and no theorem here uses it.
* That the model says what the Go code says.  Each definition cites the lines it
  models; `Tests.v` compares it with the expected outputs in /repo/test.
* The following are outside the model: the Go runtime (stack exhaustion on very
  deep nesting, memory, running time), the source of `encoding/json` (a parameter in
  `Cli`; `Json` models what it writes for the types of package ast, from its
  documentation, with the two things that differ between Go releases as parameters:
  the spelling of control characters and the limit on nesting),
  `flag` parsing, the success of writes to stderr, the contents of panic messages
  of the Go runtime, `go/py`- and `js`-side translations of the parser.
* Simplifications, all stated at the definition: pointers to nodes are values (for
  block nodes C73 proves this equal to a model with pointers, and that no block node is
  in two places; other nodes are complete when they are added to the tree; the one mutation that a user can see,
  compileFunction overwriting the parameters, is modelled by returning the new
  tree); a Go `string` built from runes is the list of the runes; positions are
  unbounded integers; the regular expressions of `vimlfunc.go` are boolean
  functions (see C55); the strings of error messages are kept in full.

## Properties: what is modelled and how each is proved

| id | approach |
|----|----------|
| C01 | fuel computed from the input; strong induction on the remaining input: every recursive call and loop iteration consumes an item, so `OutOfFuel` is impossible |
| C02, C03 | one safety invariant over all parser functions: result is `Ok` with a proper suffix as the remaining input, or `PErr`; `Panic` is shown impossible except `str2nr`; exporting a well-formed tree never fails |
| C04-C08 | positions are only created by the reader; invariant "every position in the result is the position of an item of the buffer"; reader initialisation is characterised exactly against a specification on bytes |
| C09, C10 | the line splitter is compared with a specification of lines; refutations with witnesses; `ScannerErr` keeps the error values of the reader and of `bufio.Scanner` apart, and a simulation onto `Scanner` shows that no answer depends on them, while an invariant on the bytes still to come shows that a nil `Scanner.Err` means that nothing was lost |
| C11, C12 | invariant on the frame stack; structural predicates on the AST |
| C13 | invariant on positions of the bodies in the frame stack |
| C14, C15, C38, C39 | the text is a slice of the buffer between two cursors |
| C16 | grammar-shape predicate on trees, proved for the output of each parser level |
| C17 | simulation between two texts that agree up to a line end (`Sim`); within the line, the first token of the rest is computed from `Rest.no_operator` and the grammar of C49 does the rest (`RestProof`); refutation within the line by a number that needs three characters of look-ahead |
| C18-C21 | structural predicates proved for the parser output by induction on fuel |
| C22 | simulation between the cached and the uncached tokenizer over operation histories |
| C23 | refutation by a witness and a transparency theorem for names without digits |
| C24, C25 | general lemma about the lookup function, plus finite sweeps over the generated table |
| C26 | the same simulation for whole scripts (`SimCmd SimArgs SimRun SimLoop`), in the form where one text ends right after the common lines |
| C27 | the same simulation in the form where the texts have the same cells but different lines and columns; the export commutes with a change of positions (`JoinProof`) |
| C28 | the walk is compared with a pre-order specification; refutation for lambda bodies and default arguments |
| C29-C32 | compiler model with explicit AST mutation; output compared with S-expression specifications |
| C33 | simulation of the list of lines of the reference compiler by the buffer of the Go compiler, up to a text homomorphism (identity, or deleting blanks): `RefAgree` |
| C34 | the printed text of a parsed tree is a text of the tree in the sense of `Written`; then C49; refutations with witnesses |
| C35, C36 | induction over the tree; refutations for MATCH and MATCHCI |
| C37 | finite sweep |
| C40 | fold over the list of files, for every behaviour of os.Open and every JSON encoder |
| C41, C42 | derivation of every node of an accepted input; induction over the derivation |
| C43-C46 | the text of the line is specified (`Head`, `CmdSpec`) without the parser; the parser is proved to follow it |
| C47 | finite sweep over the table with a symbolic rest of line; refutation for vim9script and some Neovim names |
| C48 | refinement between the array-and-index reader and the cursor |
| C49 | `Written` relates trees and texts without mentioning tokens; induction over it shows that each parser level reads the text and stops behind it (`WrittenProof`, `WrittenBrace`); `Lookahead` follows the two words the parser looks at after a brace |
| C50 | `WrittenScript` relates statements and texts without mentioning the reader or the parser; `TargetProof` and `ArgsProof` read the arguments of commands, `HeadBack` and `FindBack` the head of a command and its name, `ExtentBack` the text of the commands kept as text, `ListingBack` the listings of :let, :const and :function, `LineProof` one command, `BlockProof` follows the loop of the parser by induction over the grammar, with the stack of open blocks as the context; `StmtShow` exports; `ScriptProof` goes from the bytes to the file. `HeadBack` and `ExtentBack` are the converses of `HeadProof` and `ExtentProof` (C44, C51): what these relations describe is what is read |
| C51 | `Extent` says as relations between texts how far a command goes; the rules of C43 carry them for every Excmd and for the patterns of ranges and :catch, and the parser is proved to follow them (`ExtentProof`, `CmdSafe`); the API form is read off the derivation of the node |
| C52, C53 | `Json` turns the tree into a Go value and renders it; `JsonSpec` gives the grammar of JSON; induction over values (`JsonProof`), uniqueness of the value by a reader (`JsonRead`); the keys of an object tell the type of the node; refutations by a family of scripts (every limit) and by a pair of file names |
| C54 | `Rows` lists the positions of a command and its expressions in textual order; every derivation of the grammar yields them at strictly shrinking places (`run` in `RowProof`, by induction over expressions and scripts); the export keeps a sublist; with C13 for lines without a command |
| C55 | `RegexTable` holds the pattern table and the list of all its uses; `Regex` gives Go's notation and the relation "matches"; each test of the model is proved equivalent to its pattern by a calculus of matching from left to right |
| C56 | the Vim notation of the same patterns is read too; two patterns that differ in classes equal on plain characters and in the kind of word edge next to a word match alike (induction on the pattern); the table is checked to consist of such pairs, with two exceptions treated by hand; the differences are refutations |
| C57 | `Sequel` says where positions and errors move. Three relations between runs of the loop: the first text alone and with more lines behind it, up to the end of the first (`SimLoop.loop_reach`); the second text alone and at its place behind the first, with positions shifted (`shift_reader`, `SimLoop.loop_closed`); the loop with an empty context and with the commands of the first text below, and with two caches that give the same commands (`Graft`). The cache of the first text has only keys that stand in it. `C57_probe_partial` replaces the condition on how the first text ends by one that can be observed (a comment line behind it is read as a comment): a run that reaches the comment has used up no more than the lines of the first text (`SimLoop.loop_probe`) |
| C58 | `Fault` lists the messages and what each says of the text at its place and before it. The safety lemmas of all parser functions (`TokSafe`, `ExprSafe`, `Safe`, `CmdBase`, `CmdArgs`, `CmdPieces`, `CmdSafe`, `CmdLoop`) carry this for every error they raise; `CmdOpen.opens_pending` turns the context stack into the blocks that are open. `operand_due`, `target_due`, `param_due` and `argument_due` say why a token is wanted at a place: they are hypotheses of the expression lemmas (`ExprSafe`), met by every command function at the place it calls the expression parser |
| C59 | The relation between the run on a text and the run on the text with more lines (`Sim.orel`) says what becomes of the first run's failure: the same error, an error at the end of the first text (`lost`), or the report of a line end that is replaced by what the tokenizer says of the first word of the next line (`ahead`; only `parse_brace` looks there, and `Sim.stuck` says that all expression levels pass it on). Every parser function is shown to respect it, the loop by induction (`SimLoop.loop_err`, `vim_parse_err`), files and expressions in `SequelProof`. |
| C60 | Both byte strings have the same lines as seen by the reader (`seen_lines`), and the functions look at nothing else |
| C61 | The exporter commutes with a change of the positions (`JoinProof.new_ast_map`); the parser itself does not see the name |
| C62 | The loop's first turn skips blanks and colons, then the closed simulation of C57 (`SequelProof.rest_sequel`) with positions moved on the first line |
| C63 | Compiling, printing and walking commute with every change of the positions, by induction on the tree (`LayoutProof`); then C27, C61 and C62 |
| C64 | Compiling any node adds to the buffer and gives the same text whatever is in the buffer, by induction on the tree (`ConcatProof.comp_framed`); then C29, C57 and C63 |
| C65 | `CompilerObj` models the Compiler as an object with the mutable fields indent and buffer, statement by statement; `ObjProof.comp_good` proves by induction on the tree that a call agrees with the function `comp` and leaves the indentation as it was |
| C66 | `CompilerObj` models writers as arbitrary functions from the bytes to a count and an error; case analysis on the result of the call |
| C67 | Decimal numbers contain neither colons nor blanks and determine the number; the string is split from the left or from the right |
| C68 | `Scanner` models `bufio.Scanner` with its buffer (start, length, growth to 65536, repeated empty reads) over readers that cut the bytes arbitrarily; `ScannerProof.scan_all_lines` is the invariant: buffered bytes and bytes still to come together are the rest of the input, and the buffer never holds more than 65536 |
| C69 | Induction over the derivations of C43: every rule reads at least half a character per node it makes (`SizeProof.expr_fits`, `script_fits`); `new_ast_size`: the export makes no further nodes |
| C70 | The expression parser on the two texts is a pair of equal runs up to positions (`Sim.parse_expr_sim` with the map `ind`); `LineProof.head_step` reads the command; `AloneProof.rest_keeps`: the rest of the file only appends to the statements; `CallProof` for :call |
| C71 | `CliOut.v`: the tool with a device that answers each call of Write; induction over the files, in step with the tool of C40 (`PropStdout.files_reports`); C65 for the calls of Compile |
| C72 | `AssignProof`: the text up to the operator is given by the grammar of targets (`WrittenScript`), so the left side is read as in C50; the operator is read from at most three characters (`let_op_next`); then the run of the expression parser is compared with the run on the text alone as in C70 |
| C73 | `HeapParser`: store of block nodes, `context` as a list of addresses, each assignment to a field of `context[0]` an update of the store; `HeapProof`: simulation, command by command, of the frame model; the open nodes of the store match the frames (with the pointer to the block above in exactly one field), and what complete blocks reach lies outside the open nodes, so an update of the innermost node does not change it; the pointers of the store stay a permutation of the addresses after the first; `GrowProof`: every step of every command leaves each node's fixed fields and extends its lists |
| C74 | As C72 up to the expression (`CondProof.vim_opens`); then the block is open, and its node in the store of C73 keeps its kind through the rest of the run (`GrowProof.g_loop`), and the tree is read off the store at the end (`heap_end`, `block_keeps`) |
| C75 | `JsonFields`: the declarations of package ast as tables of names and contents, and the relation `shows` between a field and a JSON value; `PropFields`: the value of the output (unique by `JsonRead`) is related to the tree, by induction over the nodes in its fields |
| C76 | A file of blank lines is a script without statements (C50); C57 with the blank lines as the second, then as a part of the first text; the cells of blank lines contain no letter (`PropBlank`) |
| C77 | One turn of the command loop for each line of the header, which leaves the cache of command names empty; then the simulation of C57 from that state, which needs no condition on words when the cache is empty. Between two parts: the first part as in C57, then the same turns, which leave its cache as it is (`PropHeader`) |
| C78 | C77, and the output of a file as the concatenation of those of its statements (C64), which do not depend on positions (C63) (`PropComments`) |

Nothing in the list is inexpressible in the model; what is outside (stack
exhaustion of the Go runtime on very deep nesting, running time, memory) is not
claimed.

## Findings

Properties that are false of the code as it is are refuted by a witness
(`…_refuted`) and the true part is proved (`…_partial`).  What was found on the way:

Reader and positions
* `Offset` of a position on a continuation line is 0; the `Offset` in an error is an
  index into the rune buffer, not a byte offset.
* A `\r` removed before `\n` and invalid UTF-8 shift the offsets and columns behind it.
* A line of more than 64 KB, or an error of the reader, silently ends the input.

Expressions
* ParseExpr ignores whatever follows the first expression.
* One token of look-ahead does not determine the result: `1.5e+a` is 1.5, `1.5e+3` is
  a single number.
* `str2nr` panics on numbers beyond the range of `int`.
* `0z1` at the end of a line is the blob `0z` followed by the number `1`.
* A literal dictionary key has a position one to the right and quotes around its text;
  `#{a}` is read as a curly name.
* After an opening brace the parser looks two words ahead: `#{a:1, b:2}` is rejected with E125
  because `a:1` followed by a comma or an arrow looks like the parameter of a lambda,
  `{a->f(): 1}` is read as a lambda, and the key of `#{0z1: 2}` is read as a blob.
* `{{{…}}}` is read again at each level: exponential time.
* `{` at the end of a line: the error message depends on the next line.
* `İ` matches the `I` of `<SID>`.

Commands
* `:Foo` followed by `:Foo1 bar` gives `bar` to `Foo1` or not depending on the history
  (cache of user commands keyed by the name without digits); so a script can be read
  differently when another one is put in front of it (C57).
* `vim9script` is read as `:vimgrep` with argument `9script`; under the Neovim option
  the full names fixdel, gvim, helpfind, open, shell, tearoff and Print name nothing.
* Some table entries are unreachable (the second `const`).
* The forms of `:delete` with a flag need at least `de`: `:dl` and `:dp` are not recognised,
  although the Vim pattern in the call, `\v^d%[elete][lp]$`, matches them: the Go pattern
  that replaces it lacks the empty case. `:dp` is an error, `:dl` is read as `:dlist`.
* Go's `\s` has characters that Vim's has not: a backslash behind a form feed continues the
  line. Go's `\b` is not Vim's `\>`: `++bad=?x` and `++binä` are accepted.
* `++bad=*` followed by a blank is rejected: the code takes the next word. `:sc|ip` is read
  as `:substitute` or not depending on the text after the bar.
* A line of modifiers only gives an Excmd without a command; `Cmd()` panics on it.
  `:hide` alone drops its command and `hide|…` is an error.
* Modifiers after `silent!` are read as a command; counts before modifiers other than
  `tab` and `verbose` are dropped.
* A line with a lone `'` is ignored; `:@"` is a comment.
* `let x =<< END | foo` starts the body after the bar; with `trim` the end marker
  must match exactly; the comment behind a heredoc marker precedes the Let node.
* `unlet 1+2` is accepted; text behind `endfunction` is ignored.

Traversal, compiler, printer
* Walk and Inspect skip default arguments and lambda bodies, and never call
  `f(nil)`.
* Compile overwrites the parameters of functions; the output of an expression is used
  as a format string; a function inside a block is written with its indentation
  repeated within the header line, unlike the reference compiler; errors in nested
  nodes are dropped; heredoc text is not escaped injectively.
* The printer lacks `=~`-with-default-case operators MATCH and MATCHCI, panics on many
  kinds of node and prints a hand-built `(a==b)==c` without parentheses.
* Printed text that is not read back: a blob with a dot at its end (`0z12.3` is read as
  the blob `0z12.`, which alone is an error), a register named by a carriage return at
  the end of the text, and any text of more than 64 KB.

JSON output
* Under Go 1.15 and later the encoder refuses trees nested deeper than 10000, which a
  script of a few thousand prefix operators, parentheses or nested blocks reaches: the
  tool then prints nothing but a complaint, although the script parses.
* The type of a node is not written; it can be told from the keys, and the whole tree
  from the output, unless the file name is not UTF-8.
