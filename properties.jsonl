{"id": "C01", "title": "ParseFile terminates on every input", "statement": "For every byte sequence delivered by the reader and for both values of the Neovim option, ParseFile reaches a result (an AST or an error) after finitely many steps: no parsing loop can run without consuming input and no recursion can continue without consuming input.", "quantifier": "all byte sequences, both option values, all nesting depths", "why_tests_cant": "Non-termination shows up only on particular malformed inputs; a test suite samples a few scripts.", "anchors": ["vimlparser.go:ParseFile", "go/vimlparser.go:VimLParser.parse", "go/vimlparser.go:VimLParser.parse_one_cmd", "go/vimlparser.go:ExprParser.parse_expr1"]}
{"id": "C02", "title": "ParseExpr terminates and never panics", "statement": "For every byte sequence ParseExpr terminates and returns either an expression or an *ErrVimlParser; no index-out-of-range, nil dereference, failed type assertion or other non-parser panic occurs.", "quantifier": "all byte sequences", "why_tests_cant": "A runtime panic (for instance a look-ahead past the end of the buffer) needs a specific truncated input to show up.", "anchors": ["vimlparser.go:ParseExpr", "go/vimlparser.go:StringReader.p", "go/vimlparser.go:ExprTokenizer.get2", "go/export.go:newExprNode"]}
{"id": "C03", "title": "ParseFile errors are *ErrVimlParser, except integer overflow", "statement": "For every input ParseFile returns either a *ast.File with a nil error, or a nil file and an error; the error is an *ErrVimlParser in every case except one: a decimal count that does not fit in 32 bits (a command modifier count or a lockvar/unlockvar depth), which surfaces as an untyped error. In particular no index-out-of-range, nil dereference, failed type assertion, unknown-parser or NOT REACHED panic happens on any input.", "quantifier": "all byte sequences, both option values", "why_tests_cant": "The claim is the absence of every runtime fault on every input, including truncated and malformed ones.", "anchors": ["vimlparser.go:ParseFile", "vimlparser.go:ErrVimlParser", "go/vimlfunc.go:viml_str2nr", "go/export.go:newAstNode"]}
{"id": "C04", "title": "Error positions are real positions of the input", "statement": "The Line and Column of every *ErrVimlParser returned by ParseFile or ParseExpr are the position of a character, of a line end or of the end of the input: 1 <= Line <= number of lines + 1, and Column lies within that line (or is 0 at the end of input). Columns count bytes (each byte that is not valid UTF-8 counts as the three bytes of U+FFFD). Offset is at most the length of the input plus one.", "quantifier": "all inputs that are rejected", "why_tests_cant": "Every error path computes its own position; tests look at a few of them.", "anchors": ["vimlparser.go:ErrVimlParser", "go/type.go:Err", "go/type.go:StringReader.getpos"]}
{"id": "C05", "title": "ErrVimlParser.Offset is the byte offset of the error", "statement": "The Offset of an *ErrVimlParser, like the offset of AST positions, is the byte offset in the source of the place given by Line and Column.", "quantifier": "all inputs that are rejected", "why_tests_cant": "Only multi-byte or continued lines distinguish byte offsets from character counts.", "anchors": ["vimlparser.go:ErrVimlParser", "go/type.go:Err"]}
{"id": "C06", "title": "AST positions point at source text", "statement": "Every Pos stored in a node of a successfully parsed file carries the given file name and the line and column (1-based, in bytes) of a character, line end or end of input of the source.", "quantifier": "all accepted inputs, all nodes of the AST", "why_tests_cant": "Needs to hold for every node kind produced at every place of the parser.", "anchors": ["ast/pos.go:Pos", "go/export.go:newPos", "go/type.go:StringReader.getpos"]}
{"id": "C07", "title": "Source characters carry exact line and column", "statement": "For valid UTF-8 input, the character the reader holds at line L and column C is the character found at byte C (1-based) of line L of the input, on first lines and on continuation lines alike; each logical line is the first physical line followed by the text after the backslash of each of its continuation lines.", "quantifier": "all valid UTF-8 inputs, all characters", "why_tests_cant": "Column computation depends on the byte length of every preceding character and on continuation lines.", "anchors": ["go/type.go:StringReader.__init__"]}
{"id": "C08", "title": "Byte offsets of positions", "statement": "With LF line ends and valid UTF-8, the Offset of every character read by the parser is its byte offset in the input.", "quantifier": "all valid UTF-8 inputs with LF line ends, all characters", "why_tests_cant": "The claim ranges over all line structures, including continuation lines.", "anchors": ["go/type.go:StringReader.__init__", "ast/pos.go:Pos"]}
{"id": "C09", "title": "Line splitting loses nothing", "statement": "The lines seen by the parser, joined by line feeds, are the input (up to a final line feed and to one carriage return before each line feed), for inputs of any length with lines of any length.", "quantifier": "all byte sequences", "why_tests_cant": "The line reader has a maximum line length, only reached by very long lines.", "anchors": ["vimlparser.go:readlines"]}
{"id": "C10", "title": "Reader failures are reported", "statement": "If the io.Reader given to ParseFile or ParseExpr fails before delivering all its data, the call returns an error.", "quantifier": "all byte sequences and all failure points", "why_tests_cant": "Fault injection at every point of every input is not testable exhaustively.", "anchors": ["vimlparser.go:readlines", "vimlparser.go:ParseFile"]}
{"id": "C11", "title": "Blocks of an accepted file are closed", "statement": "In every AST returned by ParseFile, each If, While, For, Try and Function node has its End node set (non-nil), and every list element and child has the Go type its field promises.", "quantifier": "all accepted inputs, all block nodes at any nesting depth", "why_tests_cant": "Blocks can be nested and interleaved with every other command in unboundedly many ways.", "anchors": ["go/vimlparser.go:VimLParser.check_missing_endif", "go/export.go:newAstNode", "ast/node.go:If"]}
{"id": "C12", "title": "break and continue occur only inside loops, return only inside functions", "statement": "In every AST returned by ParseFile, each Break and Continue statement is a descendant of a While or For node and each Return statement is a descendant of a Function node.", "quantifier": "all accepted inputs, all statements at any depth", "why_tests_cant": "Unbounded nesting of block commands.", "anchors": ["go/vimlparser.go:VimLParser.parse_cmd_break", "go/vimlparser.go:VimLParser.parse_cmd_return", "go/vimlparser.go:VimLParser.find_context"]}
{"id": "C13", "title": "Statements appear in source order", "statement": "In every body of an AST returned by ParseFile the statements appear in the order of their source positions, and nested statements lie between the opening and the closing command of their block.", "quantifier": "all accepted inputs, all bodies", "why_tests_cant": "Ordering is an invariant over arbitrarily long files.", "anchors": ["go/vimlparser.go:VimLParser.add_node", "go/vimlparser.go:VimLParser.parse_heredoc"]}
{"id": "C14", "title": "Excmd.Command is the source text of the command", "statement": "For every Excmd node of an accepted file, Command is exactly a contiguous run of source characters starting at the command's line position (line ends inside the run rendered as line feeds).", "quantifier": "all accepted inputs, all Excmd nodes", "why_tests_cant": "Depends on all separator rules (bars, comments, CTRL-V, backtick expressions, here-documents).", "anchors": ["go/vimlparser.go:VimLParser.separate_nextcmd", "go/vimlparser.go:StringReader.getstr", "ast/node.go:Excmd"]}
{"id": "C15", "title": "Literals and identifiers are source text", "statement": "In every AST the Value of a BasicLit and the Name of an Ident are the source characters that start at the node's position.", "quantifier": "all accepted inputs, all BasicLit and Ident nodes", "why_tests_cant": "Every literal form has its own scanner.", "anchors": ["go/vimlparser.go:ExprTokenizer.get2", "go/vimlparser.go:ExprTokenizer.get_sstring", "go/vimlparser.go:ExprParser.parse_dict_literal_key"]}
{"id": "C16", "title": "Operator precedence and associativity", "statement": "In every expression AST produced by the parser the nesting follows the documented precedence levels: operands of a binary operator of level n are of level at least n on the left and above n on the right for || && + - . .. * / %, comparisons take operands strictly above their level (they do not chain), unary operators apply to unary or postfix expressions, and a ternary's condition is of level ||.", "quantifier": "all accepted expressions of any size and depth", "why_tests_cant": "Holds for all combinations of about 40 operators at any depth.", "anchors": ["go/vimlparser.go:ExprParser.parse_expr1", "go/vimlparser.go:ExprParser.parse_expr4", "go/vimlparser.go:ExprParser.parse_expr8"]}
{"id": "C17", "title": "ParseExpr consumes a non-empty prefix and the rest is untouched", "statement": "When ParseExpr succeeds it has consumed at least one character, and the result does not depend on what follows the consumed text beyond the single token of look-ahead; ParseExpr therefore accepts inputs followed by arbitrary text.", "quantifier": "all inputs", "why_tests_cant": "Quantifies over all continuations of an input.", "anchors": ["vimlparser.go:ParseExpr", "go/vimlparser.go:ExprParser.parse"]}
{"id": "C18", "title": "At most 20 arguments per call", "statement": "No CallExpr (and no call part of a MethodExpr) in any AST has more than 20 arguments.", "quantifier": "all accepted inputs, all calls at any depth", "why_tests_cant": "There are several call sites in the grammar, at unbounded nesting depth.", "anchors": ["go/vimlparser.go:ExprParser.parse_rlist", "go/vimlparser.go:ExprParser.parse_expr8", "go/vimlparser.go:MAX_FUNC_ARGS"]}
{"id": "C19", "title": "Lambda parameters are well-formed", "statement": "In every LambdaExpr the parameter names are syntactically valid argument names, pairwise distinct, and '...' appears at most once and last.", "quantifier": "all accepted inputs, all lambdas", "why_tests_cant": "Parameter lists have unbounded length.", "anchors": ["go/vimlparser.go:ExprParser.parse_expr9", "go/vimlparser.go:isargname"]}
{"id": "C20", "title": "Function parameters are well-formed", "statement": "In every Function node the parameter names are valid, pairwise distinct, different from firstline and lastline, '...' appears at most once and last, and the default values belong to the last named parameters: there are at most as many defaults as named parameters.", "quantifier": "all accepted inputs, all functions", "why_tests_cant": "Parameter lists have unbounded length and interleave defaults, commas and spaces.", "anchors": ["go/vimlparser.go:VimLParser.parse_cmd_function", "ast/node.go:Function"]}
{"id": "C21", "title": "Targets of assignments and names of functions", "statement": "The FuncCall of an ExCall is a CallExpr; the left side of a :let or :for is one assignable expression or a non-empty list of them with possibly a rest; after the first argument of :unlet, :lockvar and :unlockvar all are assignable; the operator of a :let is an assignment operator, or =<< with a here-document; names of :function and :delfunction are identifiers, curly names, dotted or subscripted names, options, environment variables or registers, and a plain name of a new function starts with a capital, _ or < or contains : or #.", "quantifier": "all accepted inputs", "why_tests_cant": "Depends on all expression forms the command may be given.", "anchors": ["go/vimlparser.go:VimLParser.parse_cmd_call", "go/vimlparser.go:VimLParser.parse_cmd_let", "go/vimlparser.go:VimLParser.parse_cmd_function"]}
{"id": "C22", "title": "The token cache is transparent", "statement": "For every sequence of token requests and seeks on one tokenizer, the tokens (and errors) obtained with the position-indexed cache are the same as without it.", "quantifier": "all inputs and all histories of peeks, gets and seeks", "why_tests_cant": "The claim is about all histories of operations.", "anchors": ["go/vimlparser.go:ExprTokenizer.get", "go/vimlparser.go:ExprTokenizer.get2", "go/vimlparser.go:ExprTokenizer.peek"]}
{"id": "C23", "title": "The command cache is transparent", "statement": "The command a line resolves to does not depend on the commands parsed before it.", "quantifier": "all inputs and all histories of previously parsed commands", "why_tests_cant": "The claim is about all histories of lookups.", "anchors": ["go/vimlparser.go:VimLParser.find_command"]}
{"id": "C24", "title": "Command names resolve by documented abbreviation", "statement": "The command recorded for a line is the first entry of the builtin table of which the name written is a prefix of at least the minimal length, or the user command of that name; it is unique. A line that starts with a letter and whose name matches nothing is rejected with E492 at its first character, quoting the line; an unknown capitalised name becomes a user command of that name.", "quantifier": "all accepted inputs and all command nodes; all first lines; both option values", "why_tests_cant": "The table has over 500 entries with overlapping prefixes, and names are arbitrary strings.", "anchors": ["go/vimlparser.go:VimLParser.find_command", "go/builtin_commands.go:builtin_commands"]}
{"id": "C25", "title": "The Neovim option changes only the documented commands", "statement": "Command resolution with and without the Neovim option agrees on every name that is not an accepted abbreviation of one of the commands Neovim adds or removes.", "quantifier": "all names", "why_tests_cant": "All prefixes of all names.", "anchors": ["go/vimlparser.go:VimLParser.find_command", "go/builtin_commands.go:neovim_additional_commands", "go/builtin_commands.go:neovim_removed_commands"]}
{"id": "C26", "title": ":finish ends the script", "statement": "If a script is accepted and has a top-level :finish, then appending any further lines to it (the first not a continuation of the last line) gives exactly the same AST, positions included: the text following :finish is not parsed.", "quantifier": "all accepted prefixes and all continuations", "why_tests_cant": "Quantifies over all continuations.", "anchors": ["go/vimlparser.go:VimLParser.parse_cmd_finish"]}
{"id": "C27", "title": "Line continuation is transparent", "statement": "Apart from lines, columns and byte offsets, parsing a script (or an expression) gives the same result as parsing the text with its continuation lines joined: the same AST, or an error with the same message at the same character. (This compares with the joined text read as written, so a joined line that itself starts with blanks and a backslash is excluded.)", "quantifier": "all inputs", "why_tests_cant": "All ways to break a script into continuation lines.", "anchors": ["go/type.go:StringReader.__init__", "go/vimlparser.go:VimLParser.parse"]}
{"id": "C28", "title": "Walk visits the tree in depth-first pre-order", "statement": "ast.Walk and ast.Inspect call the visitor for every node of the tree exactly once, parents before children and siblings in order, skip exactly the children of nodes for which the visitor declines, and (Walk) end each accepted node with Visit(nil).", "quantifier": "all ASTs and all visitors", "why_tests_cant": "All tree shapes and all visitor behaviours.", "anchors": ["ast/walk.go:Walk", "ast/walk.go:Inspect"]}
{"id": "C29", "title": "Compile is total on parsed ASTs", "statement": "Compiling any AST returned by ParseFile succeeds without error or panic.", "quantifier": "all accepted inputs", "why_tests_cant": "Depends on the AST invariants of every parser rule.", "anchors": ["compiler/compiler.go:Compiler.Compile"]}
{"id": "C30", "title": "Compile is repeatable", "statement": "Compiling the same AST twice produces the same output; compiling does not change the AST.", "quantifier": "all ASTs", "why_tests_cant": "A claim about histories of calls on shared data.", "anchors": ["compiler/compiler.go:Compiler.compileFunction"]}
{"id": "C31", "title": "Compile prints expressions verbatim", "statement": "Compiling an expression writes the S-expression of that expression, whatever characters its literals contain.", "quantifier": "all expressions", "why_tests_cant": "The S-expression is used as a format string; only particular characters trigger the difference.", "anchors": ["compiler/compiler.go:Compiler.compile", "compiler/compiler.go:Compiler.fprint"]}
{"id": "C32", "title": "Quoted S-expression text is unambiguous", "statement": "The quoting of command text in (excmd ...) and (echohl ...) is injective and a reader can find the end of the quoted text: different commands give different output.", "quantifier": "all command texts", "why_tests_cant": "All strings with quotes and backslashes.", "anchors": ["compiler/compiler.go:escape", "compiler/compiler.go:Compiler.compileExcmd"]}
{"id": "C33", "title": "The two S-expression compilers agree", "statement": "For every accepted script the S-expression written by compiler.Compile for the exported AST equals the output of the reference compiler over the internal tree (the format of vim-vimlparser).", "quantifier": "all accepted inputs", "why_tests_cant": "All AST shapes and nesting depths.", "anchors": ["compiler/compiler.go:Compiler.Compile", "go/vimlparser.go:Compiler.compile"]}
{"id": "C34", "title": "Printed expressions parse back", "statement": "For every expression produced by ParseExpr that printer.Fprint accepts, parsing the printed text yields the same expression up to positions and redundant parentheses.", "quantifier": "all accepted expressions in the printable fragment", "why_tests_cant": "All combinations of operators and nesting.", "anchors": ["printer/printer.go:Config.Fprint", "printer/expr.go:printer.expr1", "vimlparser.go:ParseExpr"]}
{"id": "C35", "title": "Printer accepts every parsed expression or returns an error", "statement": "printer.Fprint never panics on an expression returned by ParseExpr: it prints it or returns an error and writes nothing.", "quantifier": "all accepted expressions", "why_tests_cant": "All node kinds at all positions.", "anchors": ["printer/printer.go:Config.Fprint", "printer/expr.go", "printer/opprec.go:opprec"]}
{"id": "C36", "title": "Printer precedence table matches the parser", "statement": "For every binary and unary operator the printer's precedence equals the level at which the parser builds that operator.", "quantifier": "all operator tokens", "why_tests_cant": "Finite but the two tables are maintained independently.", "anchors": ["printer/opprec.go:opprec", "go/vimlparser.go:ExprParser.parse_expr4", "go/export.go:opToken"]}
{"id": "C37", "title": "Token names", "statement": "token.Token.String returns for each operator and keyword token its source spelling, distinct operators have distinct spellings, and tokenizing the spelling of a binary operator yields the operator with that token. The remaining tokens have the names of their classes or their own character, an integer that is no constant of the package is written token(n), and no two integers have the same name.", "quantifier": "all values of type token.Token (all integers)", "why_tests_cant": "Finite table maintained separately from the tokenizer.", "anchors": ["token/token.go:Token.String", "go/export.go:opToken", "go/vimlparser.go:ExprTokenizer.get2"]}
{"id": "C38", "title": "Here-document bodies are verbatim", "statement": "The Body of a HeredocExpr is exactly the lines between the :let line and the first line equal to the end marker.", "quantifier": "all here-documents of any length", "why_tests_cant": "Unbounded bodies and all marker texts.", "anchors": ["go/vimlparser.go:VimLParser.parse_heredoc"]}
{"id": "C39", "title": "Comments are kept verbatim", "statement": "Every Comment node's text is the source text from after the double quote to the end of the line.", "quantifier": "all accepted inputs, all comments", "why_tests_cant": "Comments occur after nearly every command.", "anchors": ["go/vimlparser.go:VimLParser.parse_comment", "go/vimlparser.go:VimLParser.parse_trail"]}
{"id": "C40", "title": "The command line tool reports failures", "statement": "The vimlparser command handles every file it is given, in order: it writes the output of each good file, one error for each file that cannot be opened, parsed or written, and exits with status 1 exactly if there is such a file. Without arguments it does the same with the standard input.", "quantifier": "all lists of files", "why_tests_cant": "All lists and failure patterns.", "anchors": ["cmd/vimlparser/main.go:main", "cmd/vimlparser/main.go:parseFile"]}
{"id": "C41", "title": "Operators and brackets are where their nodes say", "statement": "The position of every operator, subscript, slice, call, list, dictionary, lambda, dot and parenthesis node is the place in the source of its operator or opening bracket.", "quantifier": "all accepted inputs, all such nodes", "why_tests_cant": "Positions are computed by every rule of the expression parser, for any nesting and for continuation lines.", "anchors": ["go/vimlparser.go:ExprParser.parse_expr1", "go/vimlparser.go:ExprParser.parse_expr8", "go/vimlparser.go:ExprParser.parse_expr9", "go/export.go:newAstNode"]}
{"id": "C42", "title": "A node's command is the one written", "statement": "The text at the position of a command node is a permitted abbreviation (or the full name) of the command recorded in its ExArg, this command is one that yields this type of node, structured commands never come out as a plain Excmd, and ExArg.Cmd is nil only for lines that hold no command.", "quantifier": "all accepted inputs, all command nodes", "why_tests_cant": "There are more than 500 commands and arbitrarily many abbreviations and user commands.", "anchors": ["go/vimlparser.go:VimLParser.find_command", "go/vimlparser.go:VimLParser.parse_command", "go/vimlparser.go:VimLParser.builtin_commands"]}
{"id": "C43", "title": "Accepted inputs are scripts", "statement": "ParseFile accepts only inputs that the grammar of Vim script derives as a whole, and the AST it returns is the exported form of the derived tree.", "quantifier": "all sources, file names and options", "why_tests_cant": "All inputs, of any length and nesting.", "anchors": ["vimlparser.go:ParseFile", "go/vimlparser.go:VimLParser.parse"]}
{"id": "C44", "title": "The head of a command line is what is written", "statement": "Modifiers, Range, Cmd, Forceit and the argument options in the ExArg of every command are exactly the ones the text of its line spells; LinePos, CmdPos and ArgPos stand before the modifiers, before the command name and before the arguments. A node without a command has modifiers or a range and the rest of its line is empty or a comment.", "quantifier": "all accepted inputs, all command nodes", "why_tests_cant": "Modifiers, ranges, abbreviations and options combine freely and in any number.", "anchors": ["go/vimlparser.go:VimLParser.parse_command_modifiers", "go/vimlparser.go:VimLParser.parse_range", "go/vimlparser.go:VimLParser.find_command", "go/vimlparser.go:VimLParser.parse_command"]}
{"id": "C45", "title": "Forceit means a bang was written", "statement": "Forceit is true exactly if an exclamation mark directly follows the command name and the command is none of :substitute, :smagic, :snomagic (where it delimits the pattern) and :read (where it starts a filter); only commands that take a bang have it.", "quantifier": "all accepted inputs, all command nodes", "why_tests_cant": "All commands with all possible rests of line.", "anchors": ["go/vimlparser.go:VimLParser.parse_command"]}
{"id": "C46", "title": "Argument options are the ones written", "statement": "The ++bin, ++nobin, ++edit, ++ff, ++enc and ++bad options recorded in the ExArg of a command are those written before its arguments, the last one of each kind counts, and commands that take no such options have none.", "quantifier": "all accepted inputs, all command nodes", "why_tests_cant": "Options can be repeated and combined in any order and number.", "anchors": ["go/vimlparser.go:VimLParser.parse_argopt"]}
{"id": "C47", "title": "Every full command name names its command", "statement": "A line consisting of the full name of a builtin command, followed by anything but a letter or digit, resolves to an entry of that name.", "quantifier": "the whole builtin table, both option values, all rests of the line", "why_tests_cant": "Over 500 entries, and any text may follow.", "anchors": ["go/vimlparser.go:VimLParser.find_command", "go/builtin_commands.go:builtin_commands"]}
{"id": "C48", "title": "The reader's cells, positions and index are one cursor over the joined text", "statement": "Looking at, reading, skipping and seeking in a StringReader through its buffer, position array and index give, for every list of lines and every place, what the same operations give on the remaining text of the joined lines; no index leaves the buffer except in seek_cur, where this is reported as a panic.", "quantifier": "all lists of lines, all places, all operations", "why_tests_cant": "All lines, all indices and all sequences of operations.", "anchors": ["go/type.go:NewStringReader", "go/vimlparser.go:StringReader"]}
{"id": "C49", "title": "Everything the expression grammar generates is parsed, as the tree it was generated from", "statement": "If a line is a text of an expression tree according to the grammar of Vim expressions (operators with their precedence and associativity, literals, calls, methods, subscripts, slices, members, lists, parentheses, dictionaries, literal dictionaries, lambdas and names with braces, with blanks wherever two words would run together), ParseExpr returns that tree, up to positions. In particular no text belongs to two trees.", "quantifier": "all trees, all texts for them, all amounts of blanks, all lines that follow", "why_tests_cant": "Trees and texts are unbounded; the tests parse a few hundred expressions.", "anchors": ["vimlparser.go:ParseExpr", "go/vimlparser.go:ExprParser.parse_expr1", "go/vimlparser.go:ExprTokenizer.get2", "go/export.go:newAstNode"]}
{"id": "C50", "title": "Every script the statement grammar generates is parsed, as the statements it was generated from", "statement": "Take a script whose logical lines (continuation lines joined) are a text, according to the grammar of statements, for a list of statements: :let, :const, :unlet, :lockvar, :unlockvar, :call, :return, :throw, :eval, :echo and its variants, :execute, :echohl, :delfunction, :break, :continue, here-documents, nested :function, :if, :while, :for and :try blocks, and all commands that are kept as text: those with the rules of :help :bar, user commands, :let, :const and :function as listings, :wincmd, :syntax, the script commands (:lua and so on), :append, :insert and :loadkeymap with the lines they take, and :finish, after which nothing is read. Commands may have modifiers, ranges, abbreviated names, bangs and ++opt and +cmd options; there can be blanks, colons, bars, comments, blank lines, #! lines and lines with only modifiers or a range. ParseFile returns a file with exactly these statements, up to positions, for every file name and with both settings of the Neovim option. In particular no text belongs to two lists of statements.", "quantifier": "all lists of statements of any length and nesting, all texts for them, all ways to break the lines, all file names and options", "why_tests_cant": "Scripts are unbounded in length and nesting; the tests parse a fixed corpus.", "anchors": ["vimlparser.go:ParseFile", "go/vimlparser.go:VimLParser.parse", "go/vimlparser.go:VimLParser.parse_one_cmd", "go/vimlparser.go:VimLParser.parse_command", "go/export.go:newAstNode"]}
{"id": "C51", "title": "The text kept for an Ex command reaches exactly as far as the command does", "statement": "The Command text of every Excmd node that names a command is the source text from LinePos on. It ends where Vim's rules for the command end it: at a bar, a line feed or a comment for commands a bar can follow (not inside `= expressions, behind Ctrl-V or a backslash, and not inside the pattern of :vimgrep), with the blanks before a comment or bar dropped; at the end of the line for the others and for filters; after the key of :wincmd; at a bar outside of the patterns of :syntax; and for :append, :insert, :loadkeymap and interpreter commands with <<, after the lines below, up to and including the first one equal to the marker, or up to the end of the source.", "quantifier": "all sources, both options, all Excmd nodes at any depth", "why_tests_cant": "Where a command ends depends on arbitrary text: escapes, quotes, embedded expressions, patterns and markers in unbounded numbers of lines.", "anchors": ["vimlparser.go:ParseFile", "go/vimlparser.go:VimLParser.separate_nextcmd", "go/vimlparser.go:VimLParser.parse_cmd_common", "go/vimlparser.go:VimLParser.skip_vimgrep_pat", "go/vimlparser.go:VimLParser.parse_cmd_append", "go/vimlparser.go:VimLParser.parse_cmd_loadkeymap", "go/vimlparser.go:VimLParser.parse_cmd_lua", "go/vimlparser.go:VimLParser.parse_wincmd", "go/vimlparser.go:VimLParser.parse_cmd_syntax", "ast/node.go:Excmd"]}
{"id": "C52", "title": "The -json output is one JSON document", "statement": "For every source that parses, the tool run with -json on that one source exits with 0, writes nothing to stderr and writes to stdout exactly one JSON text as defined by RFC 8259, followed by a line feed; the text denotes exactly one JSON value.", "quantifier": "all sources (a file or stdin), all file names, both values of -neovim, all Go releases (the limit on nesting and the spelling of control characters are parameters)", "why_tests_cant": "Comments, strings and commands put arbitrary characters into the output, file names arbitrary bytes, and scripts nest without bound; escaping, separators and the limit of the encoder must be right for all of them.", "anchors": ["cmd/vimlparser/main.go:parseFile", "ast/node.go", "ast/pos.go:Pos", "ast/exarg.go:ExArg"]}
{"id": "C53", "title": "The -json output determines the syntax tree", "statement": "If the outputs of two runs with -json denote the same JSON value, the trees of the two runs are equal: node types, texts, operators, modifiers, ranges and positions. (File names must be valid UTF-8; other bytes are replaced.)", "quantifier": "all pairs of sources that parse, all UTF-8 file names, all options and Go releases of the two runs", "why_tests_cant": "It compares all pairs of trees: the node type is not written, so the keys and values alone must tell apart every two trees of every size.", "anchors": ["cmd/vimlparser/main.go:parseFile", "ast/node.go", "ast/exarg.go:ExArg", "token/token.go:Token"]}
{"id": "C54", "title": "Positions inside commands follow the text", "statement": "Read the positions of a returned tree in the order in which its parts are written: a command before its arguments, an operator between its operands, a bracket or parenthesis behind what it is applied to, a parameter before its default value, a command before the commands of its block. Each position is strictly before the next one (line, then column), over the whole file; in particular no two of these nodes share a position. Names with braces and parts in braces are not later than their first part, and a here-document has the position of its :let.", "quantifier": "all sources that parse with ParseFile or ParseExpr, both values of Neovim, all nodes at all depths", "why_tests_cant": "The order must hold for all pairs of nodes of trees of any size and nesting, across line continuations, blocks and all node types.", "anchors": ["go/export.go:newAstNode", "ast/node.go", "go/vimlparser.go:ExprParser", "go/vimlparser.go:VimLParser"]}
{"id": "C55", "title": "Every text test has a valid pattern and follows it", "statement": "Whatever text the parser tests (kinds of characters, names, command flags, ++opt arguments, one-letter and flagged command names, line continuations), the pattern it asks for is in the table of translated patterns and is a valid Go regular expression, so no test can stop the parser with \"NotImplemented\"; and the decision is that of the regular expression for every text.", "quantifier": "all calls of the pattern test in the parser, all texts of any length", "why_tests_cant": "The answer must be right for every text; unbounded texts, all characters and all 40 patterns.", "anchors": ["go/vimlfunc.go:patVim2Go", "go/vimlfunc.go:viml_eqregh", "go/vimlparser.go:isvarname", "go/vimlparser.go:parse_argopt", "go/type.go:StringReader"]}
{"id": "C56", "title": "The translated patterns mean what the Vim patterns mean", "statement": "The parser is a port of a Vim script, whose patterns are translated to Go by a table. A test answers for every text as the Vim pattern would. (True of printable ASCII texts for all patterns but two; false for :dl and :dp, for ++bad= with a character outside of words, behind a form feed, and next to letters that are not ASCII.)", "quantifier": "all patterns of the table, all texts, all settings of 'iskeyword' that keep the ASCII default", "why_tests_cant": "Equivalence of regular expressions of two languages over all texts.", "anchors": ["go/vimlfunc.go:patVim2Go", "go/vimlfunc.go:viml_eqregh", "go/vimlparser.go:find_command", "go/vimlparser.go:parse_argopt", "go/type.go:StringReader"]}
{"id": "C57", "title": "Scripts written one behind the other parse as one after the other", "statement": "If ParseFile accepts a script A that ends by itself (no :finish at its top level, its last command is not one that reads lines below it), then ParseFile of A followed by a script B returns, when B alone is accepted, the commands of A and then the commands of B with their positions moved (line by the number of lines of A, byte offset by the bytes of A, columns the same), and when B alone is rejected, the same error with its line and offset moved. (False of the code as it is when a user command of A is, up to a digit, the beginning of one of B: names already found are looked up by their letters only.)", "quantifier": "all pairs of scripts, all options and file names, all bytes", "why_tests_cant": "The parser carries a context stack, a command cache and a reader state across lines; that none of it leaks from A to B must hold for every pair of scripts.", "anchors": ["go/vimlparser.go:VimLParser.parse", "go/vimlparser.go:find_command", "go/type.go:StringReader", "vimlparser.go:ParseFile"]}
{"id": "C58", "title": "An error report is true of the text at the place it names", "statement": "When ParseFile or ParseExpr fails with a position and a message, what the message says is true of the text there. An unknown-command error (E492) quotes the rest of the line at its place, and no command is written like that line; a missing-end error is at the end of a text whose innermost open block is the one named; an error about a command that ends or continues a block is at a command of this kind while the innermost open block is of another kind; :return, :break and :continue are refused only outside functions and loops; an unexpected-token error quotes the token at its place, which is not one of those that can stand there; a missing heredoc marker, a duplicate or illegal argument, a default that is missing, an odd blob, an unfinished string and every other message of the parser likewise describe what stands at the place and before it.", "quantifier": "all texts, options and file names for which parsing fails with a ParseError", "why_tests_cant": "Each message is raised from several places with a position remembered earlier; a test can compare one message for one text, but not that no text at all makes the parser report something that is not there.", "anchors": ["go/vimlparser.go: parse, parse_command, find_command, parse_cmd_*, check_missing_if_try_loops (E126-E990)", "go/vimlparser.go: ExprTokenizer.get2, get_sstring, get_dstring", "go/vimlparser.go: ExprParser.parse_expr1..9, parse_identifier, parse_curly_parts", "go/vimlparser.go: LvalueParser.parse", "vimlparser.go: ParseFile, ParseExpr"]}
{"id": "C59", "title": "The first error stays, whatever is written behind", "statement": "If ParseFile (or ParseExpr) rejects a text with an error at a place before the end of that text, or because of a number that is too large, then it rejects every text that begins with the same lines, and with the very same error: message, offset, line and column. No later line can repair an earlier error. The only error that can be replaced is 'unexpected token/character: <EOL>'; the text is then still rejected, with an error in the added lines.", "quantifier": "all texts that are rejected before their end, all lines added behind them that do not start with a continuation line, all options and file names", "why_tests_cant": "Whether an error is reported only when it can no longer be repaired concerns every continuation of every rejected text; editors rely on it when they check a buffer while it is being typed.", "anchors": ["go/vimlparser.go:VimLParser.parse", "go/vimlparser.go:ExprParser", "go/vimlparser.go:ExprTokenizer.peek", "go/type.go:StringReader", "vimlparser.go:ParseFile, ParseExpr"]}
{"id": "C60", "title": "How lines are ended makes no difference", "statement": "ParseFile and ParseExpr give exactly the same answer, positions included, for a text whose lines end with LF, with CR LF or with any mixture of them, and with or without a line end behind the last line. (A line must be short enough to be read at all: less than 65535 bytes.)", "quantifier": "all lists of lines, all ways to end each of them, all options and file names", "why_tests_cant": "It is a statement about every choice of line ends for every text.", "anchors": ["vimlparser.go:readlines", "go/type.go:StringReader", "vimlparser.go:ParseFile, ParseExpr"]}
{"id": "C61", "title": "The file name is only a label", "statement": "ParseFile of the same source under two file names gives the same answer, with the second name in place of the first in every position of the tree, or in the error.", "quantifier": "all sources, pairs of file names, options", "why_tests_cant": "No file name and no input may change the parse; a test sees two names and one input.", "anchors": ["vimlparser.go:ParseFile", "go/export.go:newPos"]}
{"id": "C62", "title": "Blanks and colons before a command make no difference", "statement": "Spaces, tabs and colons put in front of a text change nothing but positions: it is accepted if it was, with the same statements, those on its first line moved to the right by the number of characters added (byte offsets on later lines move as well); otherwise it is rejected with the same error, moved likewise. With C57 this holds for each top-level command of a script. Except for a text that starts with #!.", "quantifier": "all texts, all strings of blanks, tabs and colons, all options and file names", "why_tests_cant": "Every command and every argument parser has to be insensitive to where on its line it starts, for every text.", "anchors": ["go/vimlparser.go:parse_one_cmd", "go/type.go:StringReader.skip_white_and_colon", "vimlparser.go:ParseFile"]}
{"id": "C63", "title": "The layout of a text does not show in what is made of it", "statement": "What Compile and Fprint write, whether they fail, and which nodes Walk and Inspect show in which order depends on the tree apart from positions and file names only. So a text whose lines are broken in another way with continuation lines, whose first command is indented, or that is read under another name gives the same output.", "quantifier": "all pairs of trees that differ in positions only (also built by hand), all indentations of the compiler, all visitors that do not look at positions; all texts and all ways to lay them out", "why_tests_cant": "No node type may let a position leak into the output, in any tree; a test compares two layouts of one text.", "anchors": ["compiler/compiler.go:Compile", "printer/printer.go:Fprint", "ast/walk.go:Walk, Inspect", "vimlparser.go:ParseFile, ParseExpr"]}
{"id": "C64", "title": "A file is compiled statement by statement", "statement": "The text Compile writes for a file returned by ParseFile is the concatenation of the texts it writes for the top-level statements, each compiled alone; each of these texts ends with a line end. So the output for a script written behind another one (under the conditions of C57) is the output for the first and then that for the second.", "quantifier": "all accepted sources, all indentations of the compiler", "why_tests_cant": "The compiler cuts line ends from the end of the text written so far whenever a block is closed; that it never cuts into the text of an earlier statement is a statement about every history of the buffer.", "anchors": ["compiler/compiler.go:Compile, trimLineBreak, compileFile", "vimlparser.go:ParseFile"]}
{"id": "C65", "title": "A Compiler can be used again", "statement": "A call of Compile on a Compiler value that has been used before writes the same and returns the same as on a new Compiler with the same Config, whatever nodes and writers the earlier calls had and whether they succeeded or returned an error. All trees from ParseFile and ParseExpr may occur in such a history. (A panic in between, possible for trees made by hand only, is different: see the refutation.)", "quantifier": "all histories of calls that returned, all nodes (also made by hand), all writers, all indentations", "why_tests_cant": "The indentation is counted up and down in a mutable field along every path through nested blocks, with errors dropped half-way; a test runs one history.", "anchors": ["compiler/compiler.go:Compiler, Compile, compileFunction, compileIf, compileWhile, compileFor, compileTry"]}
{"id": "C66", "title": "Output is written in one piece or not at all", "statement": "Compile and Fprint hand the whole output to the writer in one call of Write, and only after the node has been processed without error; on an error or panic about the node nothing is written. They return nil exactly if the node was processed and the writer took all bytes without an error (for Fprint: given that the writer keeps the contract of io.Writer).", "quantifier": "all nodes, all writers (those that fail, write a part or claim a wrong count), all indentations", "why_tests_cant": "It is a statement about every point at which the node can be refused and every way in which the writer can fail.", "anchors": ["compiler/compiler.go:Compile", "printer/printer.go:Fprint"]}
{"id": "C67", "title": "Positions and errors can be read back from their strings", "statement": "Two positions with the same String() have the same file name, line and column. Two syntax errors of the same file with the same Error() have the same line, column and message.", "quantifier": "all positions and file names (also with colons and digits in them), all errors", "why_tests_cant": "File names and messages are arbitrary text that may look like line and column numbers.", "anchors": ["ast/pos.go:Pos.String", "vimlparser.go:ErrVimlParser.Error"]}
{"id": "C68", "title": "Only the bytes count, not how the reader delivers them", "statement": "ParseFile and ParseExpr answer the same to any two readers that deliver the same bytes, however the bytes are cut into reads, with reads that deliver nothing in between. There are two exceptions, both real: a reader that answers more than 100 reads in a row with nothing loses the rest of the text, and a last line of exactly 65536 bytes is parsed if the end is reported together with its last bytes and dropped if the end comes in a read of its own.", "quantifier": "all byte sequences, all sequences of read sizes, readers that report the end with or after the last bytes, both entry points, all file names and options", "why_tests_cant": "The ways to cut a text into reads grow exponentially with its length and interact with the scanner's buffer, which moves and grows while lines are taken out of it.", "anchors": ["vimlparser.go:readlines, ParseFile, ParseExpr"]}
{"id": "C69", "title": "The tree is no larger than the text allows", "statement": "The tree ParseFile or ParseExpr returns for a text of n bytes has at most 2n+3 nodes, no chain of nodes inside nodes is longer than that, and Inspect calls its function at most that often with a node.", "quantifier": "all byte sequences, both entry points, all file names and options, all functions given to Inspect", "why_tests_cant": "A construct that makes more nodes than it has characters, or repeats a part of the tree, shows only in texts where it is nested or repeated often.", "anchors": ["vimlparser.go:ParseFile, ParseExpr", "ast/node.go", "ast/walk.go:Inspect", "go/export.go:newAstNode"]}
{"id": "C70", "title": "An expression reads the same behind a command as by itself", "statement": "If ParseFile accepts a text that starts with :throw, :eval, :execute, :echo, :echon, :echomsg or :echoerr (in any abbreviation) and blanks before an expression, then ParseExpr accepts the text without the command, and its tree is the first expression of the first statement, up to the move to the right on the first line and the file name. If ParseExpr rejects that text, ParseFile rejects the text with the command, with the same message at the same place. (The expression text starts with no blank and no bar.) The same holds for :call and a text that starts with no double quote; there, if ParseExpr delivers something else than a function call, ParseFile says so at the place of that expression.", "quantifier": "all byte sequences of any number of lines (continuation lines and further commands included), all abbreviations of the seven commands, all runs of blanks and tabs, all file names and options", "why_tests_cant": "The two entry points start the expression parser from different places of different readers; a test compares them on a few expressions and no test compares their errors.", "anchors": ["vimlparser.go:ParseFile, ParseExpr", "go/vimlparser.go:parse_cmd_throw, parse_cmd_eval, parse_cmd_echo, parse_cmd_execute, parse_exprlist", "go/vimlparser.go:ExprParser", "go/vimlparser.go: parse_cmd_call"]}
{"id": "C71", "title": "The exit status of the tool tells whether the whole output was written", "statement": "Whatever writes to its standard output fail, the command line tool handles every file it is given, in order. For each file a first part of its output gets onto standard output. There is one complaint for each file that cannot be opened or parsed and one for each output that was not taken without an error. The status is 0 if and only if there is no complaint, and then standard output holds exactly the outputs of all files. On a standard output that never fails, the tool is that of C40.", "quantifier": "all lists of file names, all contents of files and standard input, both flags, all sequences of answers of Write that keep the contract of os.File, all JSON encoders", "why_tests_cant": "A disk can be full at any byte of any write; a test does not make writes fail.", "anchors": ["cmd/vimlparser/main.go:main, parseFile", "compiler/compiler.go:Compile"]}
{"id": "C72", "title": "The value of an assignment reads the same as by itself", "statement": "Take a :let or :const (in any abbreviation, with modifiers or without) with a left side and an assignment operator, and behind it any text. If ParseFile accepts the whole, ParseExpr accepts the text behind the operator, and the first statement is an assignment with that operator and that left side whose value is the tree ParseExpr delivers, up to the move to the right on the first line and the file name. If ParseExpr rejects the text behind the operator, ParseFile rejects the whole, with the same message at the same place. (Left out: a < directly behind a single equals sign, which may start a here-document.)", "quantifier": "all texts behind the operator (any number of lines, joined or not), all left sides of the grammar of targets (names, options, registers, environment variables, subscripts, slices, members, lists with a rest), all operators, options, file names and readers", "why_tests_cant": "Which of the two- and three-character operators is read depends on the text behind it, and the expression parser continues over joined lines; a test shows it for one left side and one value only.", "anchors": ["go/vimlparser.go: parse_cmd_let, parse_cmd_const, parse_letlhs, parse_constlhs", "vimlparser.go: ParseFile, ParseExpr"]}
{"id": "C73", "title": "The tree is built by updates in place, and no block is lost, duplicated or filled with another block's statements", "statement": "ParseFile makes a node for a block when its first line is read, puts a pointer to it into the enclosing node at once, and fills it by assignments while it is the innermost open block. For every input the result read off by following the pointers after the last line is the same (tree or error) as if every block had been built as a value when it ended. When parsing succeeds every block node that was made is in the tree, in exactly one field of exactly one node made before it, so the result has no shared and no cyclic part. While the input is read nothing is taken back: a node there is after some of the commands is in the finished tree with the same command, arguments and position, and its body, its :elseif parts and its :catch parts start with what they were then (the tree only grows).", "quantifier": "all byte sources, file names and options; all nestings of blocks", "why_tests_cant": "Whether an assignment through a pointer can reach a node that was already complete depends on the whole history of opened and closed blocks; a test sees a few nestings.", "anchors": ["go/type.go: VimNode, Node, push_context, pop_context", "go/vimlparser.go: add_node, find_context, parse, parse_cmd_function ... parse_cmd_endtry"]}
{"id": "C74", "title": "The condition of a block reads the same as by itself", "statement": "Take an :if, a :while or a :for with its target and its 'in' (in any abbreviation, with modifiers or without), and behind it any text, which may go on with the whole block and the rest of a file. If ParseFile accepts the whole, ParseExpr accepts the text behind the command, and the first statement is that block (a :for with that target) whose condition or list is the tree ParseExpr delivers, up to the move to the right on the first line and the file name, whatever is in the block and after it. If ParseExpr rejects the text behind the command, ParseFile rejects the whole, with the same message at the same place.", "quantifier": "all texts behind the command (any number of lines, joined or not, any block contents), all targets of :for, options, file names and readers", "why_tests_cant": "The node of the block is made before its contents are read and is changed while they are read; that its condition is never touched concerns every possible content, and a test has one.", "anchors": ["go/vimlparser.go: parse_cmd_if, parse_cmd_while, parse_cmd_for, parse_expr", "vimlparser.go: ParseFile, ParseExpr"]}
{"id": "C75", "title": "Under -json every field of every node is found under its name", "statement": "When the tool prints a tree with -json, the value of the output is an object that shows the root: its members are the fields of the struct that package ast declares for the node, with exactly these names and in this order, and the value of each member shows the field: a position its offset, line, column and file name, a text the text, a number the number in decimal, a token its number, a node the object of that node, a list the array of what is in it (or null if it is empty), a nil pointer null; and so on for every node below. A modifier is an object with its name and, if it has them, its bang and its count. So a program that looks a member up by the name of a field finds that field.", "quantifier": "all scripts that parse, options, arguments of the tool (a file or standard input), file names (as text where they are UTF-8), releases of Go", "why_tests_cant": "The names and the order of the members must be right for each of the 49 node types at every depth of every tree; a golden file covers the nodes that happen to be in it.", "anchors": ["cmd/vimlparser/main.go: run", "ast/node.go: File ... HeredocExpr", "ast/pos.go: Pos", "ast/exarg.go: ExArg, Cmd"]}
{"id": "C76", "title": "Blank lines between commands make no difference", "statement": "Lines of nothing but blanks, tabs and colons at the top of a file, unless the line below them is a continuation line, change the answer of ParseFile only in the places it names: the statements are the same ones moved down by the bytes and the number of these lines, an error is the same error moved down. The same holds for such lines between two parts of a file at the top level, the first of which is accepted by itself, has no :finish and does not end with a command that reads the lines below it: with and without the blank lines ParseFile delivers the statements of the first part and then those of the second at the places where they stand, or the same error, at its place. (Left out, as in C57: a capital word of the first part that stands before a digit in the second.)", "quantifier": "all numbers and contents of blank lines, all texts above and below them, options, file names and readers", "why_tests_cant": "That an extra line is inert depends on the state of the reader and of the parser at that point, and all later positions depend on it; a test has one text.", "anchors": ["go/vimlparser.go: parse_one_cmd, StringReader.skip_white_and_colon, NewStringReader", "vimlparser.go: ParseFile"]}
{"id": "C77", "title": "Comments on lines of their own change nothing in the rest of the file", "statement": "Put into a file any lines each of which is a comment (a double quote behind blanks, tabs and colons, then any text), a line of nothing but blanks, tabs and colons, or a line that starts with #!, where the line below is not a continuation line: at the top of the file; below a part of it at the top level that is accepted by itself, has no :finish and does not end with a command that reads the lines below it; or at the end of such a file. Then the answer of ParseFile has one more comment for each comment line, with the text behind the quote, at the place of the quote, in order, between the statements above and those below; the statements below are moved down by the bytes and the number of the lines added, and an error below is the same error moved down. Nothing that is in the comments matters. (Left out in the second case, as in C57: a capital word of the part above that stands before a digit in the part below.)", "quantifier": "all such lines (any number, any text in them), all files around them, options, file names and readers", "why_tests_cant": "The header leaves the parser in a state (context stack, command cache, reader position) in which the rest is read; that this state differs from the initial one in nothing but the place and the comments has to hold for every header and every file.", "anchors": ["go/vimlparser.go:parse_one_cmd", "go/vimlparser.go:parse_comment", "go/type.go:StringReader", "vimlparser.go:ParseFile"]}
{"id": "C78", "title": "Comments come out of Compile as comments, in place", "statement": "Take lines as in C77 (comments, blank lines, #! lines) at the top of a file, between two parts of it or at its end, under the conditions of C77. Then the output of Compile for the file with these lines is that for the file without them, with one line put in at that place for each comment: a semicolon and the text behind the quote. Blank lines and #! lines leave no trace.", "quantifier": "all such lines, all files around them, all indentations of the compiler, options, file names and readers", "why_tests_cant": "The compiler trims line ends from its buffer while it writes blocks; that no comment is lost, doubled or merged with what is around it is a statement about all files.", "anchors": ["compiler/compiler.go:Compile, compileComment", "go/vimlparser.go:parse_comment", "vimlparser.go:ParseFile"]}
