{
 "claims": [
  {
   "property": "C01",
   "status": "proved",
   "theorems": [
    "C01_ParseFile_terminates"
   ],
   "note": "every fuel of the model suffices on every input"
  },
  {
   "property": "C02",
   "status": "proved",
   "theorems": [
    "C02_ParseExpr_total"
   ],
   "note": ""
  },
  {
   "property": "C03",
   "status": "proved",
   "theorems": [
    "C03_ParseFile_errors"
   ],
   "note": "three cases, each shown to occur"
  },
  {
   "property": "C04",
   "status": "proved",
   "theorems": [
    "C04_error_position",
    "C04_lines_exist"
   ],
   "note": "for both functions; lines as specified by seen_lines"
  },
  {
   "property": "C05",
   "status": "partial",
   "theorems": [
    "C05_error_offset_refuted",
    "C05_error_offset_partial",
    "C05_error_offset_ascii_partial"
   ],
   "note": "false of the code: Offset is an index into the reader buffer. Refuted by a witness; proved what it is, and that it is the byte offset on ASCII text without continuation lines"
  },
  {
   "property": "C06",
   "status": "proved",
   "theorems": [
    "C06_node_positions",
    "C06_command_position"
   ],
   "note": "Offsets are included: the byte offset of the place, or 0 on a continuation line (see C08)."
  },
  {
   "property": "C07",
   "status": "proved",
   "theorems": [
    "C07_logical_lines",
    "C07_exact_column"
   ],
   "note": ""
  },
  {
   "property": "C08",
   "status": "partial",
   "theorems": [
    "C08_offset_refuted",
    "C08_offset_partial"
   ],
   "note": "false on continuation lines, where the offset is 0; proved for all other lines"
  },
  {
   "property": "C09",
   "status": "partial",
   "theorems": [
    "C09_lines_refuted",
    "C09_lines_partial",
    "C09_short_lines_partial",
    "C09_split_exists"
   ],
   "note": "false for lines of 65536 bytes or more; proved otherwise"
  },
  {
   "property": "C10",
   "status": "partial",
   "theorems": [
    "C10_reader_failure_refuted",
    "C10_success_refuted",
    "C10_ignored_refuted",
    "C10_pending_partial",
    "C10_ends",
    "C10_answers"
   ],
   "note": "false of the code: readlines does not look at scanner.Err(), so ParseFile and ParseExpr answer to every failure as to io.EOF (C10_ignored_refuted). Proved in the other direction, with the errors kept: whenever the loop ends and Scanner.Err() is nil, the reader ended with io.EOF and the lines are those of all its bytes, so that the missing check is the only thing that loses failures (C10_pending_partial, C10_ends). C10_answers: with a reader that does not stall the answers are those for its bytes, whatever its error."
  },
  {
   "property": "C11",
   "status": "proved",
   "theorems": [
    "C11_typed",
    "C11_blocks",
    "C11_heredoc"
   ],
   "note": "typed is a predicate over the node kinds written in Nodes.v: the types of all fields and the presence of End nodes; the statements of blocks are whole commands"
  },
  {
   "property": "C12",
   "status": "proved",
   "theorems": [
    "C12_break",
    "C12_continue",
    "C12_return",
    "C12_inside_exists"
   ],
   "note": ""
  },
  {
   "property": "C13",
   "status": "partial",
   "theorems": [
    "C13_order_refuted",
    "C13_order_partial",
    "C13_order_complete"
   ],
   "note": "False for the comment on the first line of a here-document, which is stored in front of its :let (C13_order_refuted). Proved: preorder of all commands and comments is strictly in source order except for that pair, and for a line without a command and the comment behind it, which share a position."
  },
  {
   "property": "C14",
   "status": "proved",
   "theorems": [
    "C14_excmd_text",
    "C14_cells_exist"
   ],
   "note": ""
  },
  {
   "property": "C15",
   "status": "partial",
   "theorems": [
    "C15_literal_refuted",
    "C15_literal_partial",
    "C15_identifier"
   ],
   "note": "False for the keys of #{} dictionaries: quotes are added and the position is one character late. Proved for all other literals and for identifiers."
  },
  {
   "property": "C16",
   "status": "proved",
   "theorems": [
    "C16_nesting"
   ],
   "note": ""
  },
  {
   "property": "C17",
   "status": "partial",
   "theorems": [
    "C17_lookahead_refuted",
    "C17_lines_partial",
    "C17_rest_partial",
    "C17_nonempty"
   ],
   "note": "Refuted as stated: 1.5e+a and 1.5e+3 have the same next two tokens after 1.5. Proved: the lines after the first (joined) line have no influence (C17_lines_partial); within the line, a text of an expression followed by anything that does not start with an operator is read as that expression, whatever comes after (C17_rest_partial, for the texts described by Written.v). Missing: what the rest of the line changes when it does start with an operator."
  },
  {
   "property": "C18",
   "status": "proved",
   "theorems": [
    "C18_arguments"
   ],
   "note": ""
  },
  {
   "property": "C19",
   "status": "proved",
   "theorems": [
    "C19_lambda_parameters"
   ],
   "note": ""
  },
  {
   "property": "C20",
   "status": "proved",
   "theorems": [
    "C20_function_parameters"
   ],
   "note": ""
  },
  {
   "property": "C21",
   "status": "proved",
   "theorems": [
    "C21_command_shape"
   ],
   "note": ""
  },
  {
   "property": "C22",
   "status": "proved",
   "theorems": [
    "C22_cache"
   ],
   "note": "run_cached keeps the cache keyed by the index as ExprTokenizer does; run_plain tokenizes anew at every request. Errors are part of the compared result."
  },
  {
   "property": "C23",
   "status": "partial",
   "theorems": [
    "C23_history_refuted",
    "C23_same_command_partial",
    "C23_cut_partial"
   ],
   "note": "The full claim is false: after :Foo, a line :Foo1 is cut before the digit (C23_history_refuted). Proved: two commands of any two accepted inputs with the same text from the name to the end of the line are the same command unless the text may name a user command with a digit; with a digit, the name is the right one or cut before the digit."
  },
  {
   "property": "C24",
   "status": "proved",
   "theorems": [
    "C24_resolution",
    "C24_unknown",
    "C24_user_command"
   ],
   "note": "Resolution is stated for command nodes of all accepted inputs (names with a digit excluded: C23); E492 and user commands for first lines."
  },
  {
   "property": "C25",
   "status": "proved",
   "theorems": [
    "C25_names",
    "C25_lines",
    "C25_nodes"
   ],
   "note": "For words, for lines, and for the nodes of any two accepted inputs."
  },
  {
   "property": "C26",
   "status": "proved",
   "theorems": [
    "C26_finish"
   ],
   "note": "The open form of the same simulation: the texts agree up to a line end, and the parser stops there when :finish has been reached."
  },
  {
   "property": "C27",
   "status": "proved",
   "theorems": [
    "C27_joined",
    "C27_rebroken",
    "C27_joined_exists"
   ],
   "note": "Simulation of the parser on two texts with the same characters in their logical lines (Sim*.v), and of the export under a change of positions (JoinProof.v)."
  },
  {
   "property": "C28",
   "status": "partial",
   "theorems": [
    "C28_walk_refuted",
    "C28_default_refuted",
    "C28_walk_partial",
    "C28_children",
    "C28_inspect_partial",
    "C28_statements"
   ],
   "note": "Refuted: Walk does not reach the default values of parameters nor the body of a lambda. Proved: Walk and Inspect make the traversal over all other children (C28_children shows the difference is exactly these two), every statement is visited"
  },
  {
   "property": "C29",
   "status": "proved",
   "theorems": [
    "C29_compile_total"
   ],
   "note": "for every indentation string"
  },
  {
   "property": "C30",
   "status": "partial",
   "theorems": [
    "C30_repeatable_refuted",
    "C30_repeatable_partial"
   ],
   "note": "Refuted for functions with ... as last parameter, which Compile removes from the tree; proved for all trees without one"
  },
  {
   "property": "C31",
   "status": "partial",
   "theorems": [
    "C31_verbatim_refuted",
    "C31_verbatim_partial",
    "C31_format"
   ],
   "note": "Refuted: the text is used as a format string, so a percent sign is garbled; proved for all expressions whose S-expression has no percent sign C31_format says what is written for every expression: the S-expression is taken as a format by fmt (Format.v), and what comes out is the S-expression exactly when it has no percent sign."
  },
  {
   "property": "C32",
   "status": "proved",
   "theorems": [
    "C32_excmd",
    "C32_echohl",
    "C32_unambiguous",
    "C32_different"
   ],
   "note": ""
  },
  {
   "property": "C33",
   "status": "partial",
   "theorems": [
    "C33_same_refuted",
    "C33_same_partial"
   ],
   "note": "False as stated: for a function inside a block compiler.Compile writes the indentation again before the parameters and the closing parenthesis of the header (compiler/compiler.go compileFunction), the reference compiler does not. Proved for every accepted script: both compilers succeed, their texts are equal up to blanks, and equal outright if no function is inside another statement."
  },
  {
   "property": "C34",
   "status": "partial",
   "theorems": [
    "C34_read_back_partial",
    "C34_read_back_refuted",
    "C34_register_refuted"
   ],
   "note": "False for three kinds of text (a blob ending with a dot, a register named CR at the end, more than 64 KB); proved for all others: the tree read back is the original one without doubled parentheses, and printing it again gives the same text."
  },
  {
   "property": "C35",
   "status": "partial",
   "theorems": [
    "C35_printer_refuted",
    "C35_printer_partial"
   ],
   "note": "Refuted: panics on list, dict, call etc.; proved: exactly which expressions are printed, that files give an error and everything else panics"
  },
  {
   "property": "C36",
   "status": "partial",
   "theorems": [
    "C36_precedence_refuted",
    "C36_precedence_partial",
    "C36_table_partial"
   ],
   "note": "Refuted for =~ and =~?; proved for all other operators"
  },
  {
   "property": "C37",
   "status": "proved",
   "theorems": [
    "C37_names",
    "C37_distinct",
    "C37_read_back",
    "C37_total",
    "C37_class_names",
    "C37_constants",
    "C37_unknown",
    "C37_all_distinct"
   ],
   "note": ""
  },
  {
   "property": "C38",
   "status": "partial",
   "theorems": [
    "C38_body_refuted",
    "C38_body_partial"
   ],
   "note": "False when a bar follows the marker: the body starts on the same line. Proved otherwise, with the words of the first line."
  },
  {
   "property": "C39",
   "status": "proved",
   "theorems": [
    "C39_comment"
   ],
   "note": ""
  },
  {
   "property": "C40",
   "status": "proved",
   "theorems": [
    "C40_all_files",
    "C40_status",
    "C40_stdin"
   ],
   "note": "encoding/json is a function parameter that may fail on any node; os.Open may fail on any name; writes to stdout are taken to succeed."
  },
  {
   "property": "C41",
   "status": "proved",
   "theorems": [
    "C41_operator_position"
   ],
   "note": ""
  },
  {
   "property": "C42",
   "status": "proved",
   "theorems": [
    "C42_command_name"
   ],
   "note": ""
  },
  {
   "property": "C43",
   "status": "proved",
   "theorems": [
    "C43_script"
   ],
   "note": ""
  },
  {
   "property": "C44",
   "status": "proved",
   "theorems": [
    "C44_command_line",
    "C44_no_command"
   ],
   "note": ""
  },
  {
   "property": "C45",
   "status": "proved",
   "theorems": [
    "C45_bang",
    "C45_allowed"
   ],
   "note": ""
  },
  {
   "property": "C46",
   "status": "proved",
   "theorems": [
    "C46_options"
   ],
   "note": ""
  },
  {
   "property": "C47",
   "status": "partial",
   "theorems": [
    "C47_full_names_partial",
    "C47_vim9script_refuted"
   ],
   "note": "False for vim9script, which is read as :vimgrep; the four modifiers that start with k are excluded too, they are read as modifiers before any command lookup. Proved for all other entries, and under Neovim for all names that abbreviate no removed command."
  },
  {
   "property": "C48",
   "status": "proved",
   "theorems": [
    "C48_construction",
    "C48_looking",
    "C48_reading",
    "C48_seeking"
   ],
   "note": "The theorem relates the array-and-index reader (IndexReader.v) to the cursor used by the rest of the model (Reader.v)."
  },
  {
   "property": "C49",
   "status": "partial",
   "theorems": [
    "C49_reads_written_partial",
    "C49_unambiguous_partial",
    "C49_literal_key_refuted",
    "C49_blob_key_refuted",
    "C49_method_key_refuted"
   ],
   "note": "All of the expression grammar is covered. Refuted as a whole: after an opening brace the parser looks two words ahead, so a literal dictionary without a blank after the first colon (#{a:1, b:2}), a key that looks like a malformed blob and a method call on a name as the first key are rejected. The grammar excludes these texts, and names starting with is# directly after a brace."
  },
  {
   "property": "C50",
   "status": "proved",
   "theorems": [
    "C50_reads_written",
    "C50_unambiguous"
   ],
   "note": "Every command of the table is covered. Not in the grammar: the texts the parser misreads, see WrittenScript.v, and C49 for those inside expressions; after the names of a listing (:let a b) nothing may look like an operator. The heads of commands (modifiers, range, name, bang, options) and the extent of the text are the relations of Head.v and Extent.v that C44 and C51 prove of every accepted command; here they are shown to be sufficient, so these relations are exact."
  },
  {
   "property": "C51",
   "status": "proved",
   "theorems": [
    "C51_extent"
   ],
   "note": "The rules are relations between texts in Extent.v and CmdSpec.v. Expressions in backquotes are those of the expression grammar (C13, Grammar.v). That the next command is read from where the text ends is part of C43."
  },
  {
   "property": "C52",
   "status": "partial",
   "theorems": [
    "C52_json_partial",
    "C52_depth_refuted"
   ],
   "note": "Holds without a limit on nesting (Go before 1.15) and, for releases with a limit m, for trees with at most k nodes below one another where 3k+4 <= m. Missing: for every limit there are scripts that parse and are refused by the encoder (C52_depth_refuted)."
  },
  {
   "property": "C53",
   "status": "proved",
   "theorems": [
    "C53_json_injective",
    "C53_names_refuted"
   ],
   "note": "C53_names_refuted shows that the restriction to file names in UTF-8 is needed."
  },
  {
   "property": "C54",
   "status": "proved",
   "theorems": [
    "C54_rows",
    "C54_nodes",
    "C54_complete",
    "C54_own",
    "C54_braces",
    "C54_heredoc"
   ],
   "note": "The rows (Rows.v) leave out comments, whose place C13 describes, and the three kinds of nodes without a character of their own; C54_complete and C54_own state that nothing else is left out."
  },
  {
   "property": "C55",
   "status": "proved",
   "theorems": [
    "C55_compiles",
    "C55_keys",
    "C55_tests"
   ],
   "note": "go_pattern covers the part of RE2 syntax that the table uses; the meaning of patterns is an inductive relation on texts"
  },
  {
   "property": "C56",
   "status": "partial",
   "theorems": [
    "C56_tests_partial",
    "C56_table_partial",
    "C56_delete_partial",
    "C56_bad_partial",
    "C56_delete_refuted",
    "C56_bad_refuted",
    "C56_space_refuted",
    "C56_letter_refuted"
   ],
   "note": "The full statement is false (the four refutations); proved for texts of printable ASCII characters and tabs, with the exact exceptions of two patterns"
  },
  {
   "property": "C57",
   "status": "partial",
   "theorems": [
    "C57_sequel_refuted",
    "C57_sequel_partial",
    "C57_probe_partial",
    "C57_bytes",
    "C57_finish_refuted",
    "C57_append_refuted"
   ],
   "note": "Proved for every pair in which no capital word before a digit in B occurs in A, and A ends by itself. C57_sequel_partial says the latter of the tree of A (no :finish at its top level, its last command is not one that may read lines below); C57_probe_partial says it in a way that can be observed and leaves out nothing harmless: A followed by a line with only a double quote is accepted and its last command is a comment. Refuted without the first condition: Foo then Foo1. The second is shown necessary by C57_finish_refuted and C57_append_refuted. C57_bytes: the lines of the concatenated bytes."
  },
  {
   "property": "C58",
   "status": "proved",
   "theorems": [
    "C58_file_report",
    "C58_expr_report",
    "C58_unknown_command",
    "C58_open_block",
    "C58_block_command"
   ],
   "note": "Every message with what it says is listed in Fault.v, without reference to the parser, and every error ParseFile and ParseExpr can return is shown to be one of them at the returned position. An unexpected-token message also says what is due at its place and why: behind which token, argument, sign or command head an operand, a target or a parameter has to stand, or behind which finished expression a separator. C58_unknown_command, C58_open_block and C58_block_command read off what the messages about commands and blocks say."
  },
  {
   "property": "C59",
   "status": "proved",
   "theorems": [
    "C59_first_error_stays",
    "C59_expr_error_stays",
    "C59_line_end_refuted"
   ],
   "note": "C59_line_end_refuted shows that the exception in the statement is needed: let x = { alone fails at the end of its line; with a line behind it that starts with a control character the error is in that line, because behind an opening brace one token of the next line is looked at."
  },
  {
   "property": "C60",
   "status": "proved",
   "theorems": [
    "C60_line_ends"
   ],
   "note": ""
  },
  {
   "property": "C61",
   "status": "proved",
   "theorems": [
    "C61_file_name"
   ],
   "note": ""
  },
  {
   "property": "C62",
   "status": "proved",
   "theorems": [
    "C62_leading_blanks",
    "C62_header_refuted"
   ],
   "note": "C62_header_refuted shows that the condition is needed: behind a blank, #! is an unknown command."
  },
  {
   "property": "C63",
   "status": "proved",
   "theorems": [
    "C63_shape",
    "C63_walk",
    "C63_inspect",
    "C63_rebroken",
    "C63_indented",
    "C63_renamed"
   ],
   "note": ""
  },
  {
   "property": "C64",
   "status": "proved",
   "theorems": [
    "C64_statements",
    "C64_sequel"
   ],
   "note": ""
  },
  {
   "property": "C65",
   "status": "proved",
   "theorems": [
    "C65_reuse",
    "C65_accepted",
    "C65_panic_refuted"
   ],
   "note": "C65_panic_refuted shows that the condition on panics is needed: after a recovered panic inside a block the next output is indented."
  },
  {
   "property": "C66",
   "status": "proved",
   "theorems": [
    "C66_compile",
    "C66_fprint",
    "C66_fprint_silent"
   ],
   "note": "The behaviour of io.Copy on a bytes.Buffer (one Write unless empty, error on a short write, panic on an impossible count) is modelled after the documentation of package bytes."
  },
  {
   "property": "C67",
   "status": "proved",
   "theorems": [
    "C67_position",
    "C67_error",
    "C67_has_string"
   ],
   "note": ""
  },
  {
   "property": "C68",
   "status": "proved",
   "theorems": [
    "C68_delivery",
    "C68_stall_refuted",
    "C68_eager_refuted"
   ],
   "note": "bufio.Scanner is modelled call by call from its source (Go's standard library, not in /repo). The two refutations show that the two conditions of C68_delivery are needed."
  },
  {
   "property": "C69",
   "status": "proved",
   "theorems": [
    "C69_size",
    "C69_depth",
    "C69_inspect"
   ],
   "note": ""
  },
  {
   "property": "C70",
   "status": "proved",
   "theorems": [
    "C70_expression_alone",
    "C70_call_alone",
    "C70_rest_refuted",
    "C70_bar_refuted"
   ],
   "note": "C70_rest_refuted and C70_bar_refuted show that the converse of the first part fails and why the bar is left out."
  },
  {
   "property": "C71",
   "status": "proved",
   "theorems": [
    "C71_all_files",
    "C71_complete",
    "C71_never_fails",
    "C71_contract_refuted"
   ],
   "note": "C71_contract_refuted: json.Encoder does not look at the count Write returns, so the contract of os.File (an error if less was taken) is needed."
  },
  {
   "property": "C72",
   "status": "proved",
   "theorems": [
    "C72_assigned_value",
    "C72_heredoc_refuted"
   ],
   "note": "C72_heredoc_refuted shows why the case left out is left out."
  },
  {
   "property": "C73",
   "status": "proved",
   "theorems": [
    "C73_in_place",
    "C73_one_place",
    "C73_only_grows"
   ],
   "note": "The store is modelled for block nodes; the other nodes are complete when they are added and are values."
  },
  {
   "property": "C74",
   "status": "proved",
   "theorems": [
    "C74_condition_alone"
   ],
   "note": "The first line up to the expression is ASCII; the text behind :if and :while starts with no blank (blanks belong to the command)."
  },
  {
   "property": "C75",
   "status": "proved",
   "theorems": [
    "C75_json_fields",
    "C75_lookup"
   ],
   "note": "JsonFields.v holds the declarations of package ast as tables (written out from the text of ast/node.go by a script, independently of Json.gnode) and the relation between a field and the JSON value that shows it. C75_case follows names through the output of a script with a block, a modifier and a binary expression. Encoding/json is modelled after its documentation, as for C52 and C53."
  },
  {
   "property": "C76",
   "status": "proved",
   "theorems": [
    "C76_top",
    "C76_between"
   ],
   "note": "A file of blank lines has no statements (from the completeness theorem C50_reads_written); the rest from C57_sequel_partial, with the proof that blank lines contain no name that could be cut. C76_case shows a text with two blank lines that meets all hypotheses. Blank lines inside blocks are not covered."
  },
  {
   "property": "C77",
   "status": "proved",
   "theorems": [
    "C77_header",
    "C77_between",
    "C77_footer"
   ],
   "note": "Top of a file, between two parts of it, end of it. C77_between has the condition on words of C57, for the parts of the file only; the other two have none. The cases show a header with a #! line, two comments and an empty line above an accepted file, a comment above a rejected one, and comments between two parts."
  },
  {
   "property": "C78",
   "status": "proved",
   "theorems": [
    "C78_header",
    "C78_between",
    "C78_footer"
   ],
   "note": "The conditions are those of C77_header, C77_between and C77_footer."
  }
 ]
}
