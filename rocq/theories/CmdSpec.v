(** Specification: the head of a command, for the nodes of the public AST. *)
From Verif Require Import Base CharClass Reader Vnode CmdTable Token Ast Api Nodes Head Extent Script.

(** The option of ParseFile. *)
Definition with_neovim (opt : option parse_option) : bool :=
  match opt with Some o => o_neovim o | None => false end.

(** The fields of ast.ExArg that the head of the line determines. *)
Definition ast_head (e : aexarg) : head_fields :=
  mkHead (ae_modifiers e) (ae_range e) (ae_force_bin e) (ae_read_edit e) (ae_force_ff e) (ae_force_enc e)
    (ae_bad_char e) (ae_forceit e) (ae_append e) (ae_usefilter e) (ae_amount e) (ae_do_ecmd_cmd e).

(** [line_from cells p s post]: the line is [s] from the position [p] to its end, where
    [post] begins. *)
Definition line_from (cells : list (cell * N * N)) (p : apos) (s : text) (post : list (cell * N * N)) : Prop :=
  text_at cells (ap_line p) (ap_column p) s post /\ line_end post.

(** The line of a command: LinePos is in front of [lead], CmdPos in front of the name
    [w], ArgPos in front of [opts]. *)
Definition command_line (cells : list (cell * N * N)) (neovim : bool) (e : aexarg) (x : cmd)
  (lead w bang white opts rest : text) : Prop :=
  exists lp cp ap post,
    ae_linepos e = Some lp /\ line_from cells lp (lead ++ w ++ bang ++ white ++ opts ++ rest) post /\
    ae_cmdpos e = Some cp /\ line_from cells cp (w ++ bang ++ white ++ opts ++ rest) post /\
    ae_argpos e = Some ap /\ line_from cells ap (opts ++ rest) post /\
    head_text neovim x (ast_head e) lead w bang white opts rest.

(** A line with modifiers or a range and no command. *)
Definition lead_line (cells : list (cell * N * N)) (e : aexarg) (lead rest : text) : Prop :=
  exists lp cp post,
    ae_linepos e = Some lp /\ line_from cells lp (lead ++ rest) post /\
    ae_cmdpos e = Some cp /\ line_from cells cp rest post /\ ae_argpos e = None /\
    lead_text (ast_head e) lead rest /\ (ae_modifiers e <> [] \/ ae_range e <> []) /\
    (rest = [] \/ begins [34] rest).

(** The line may name a user command up to or past a digit. *)
Definition digit_in_name (neovim : bool) (line : text) : Prop :=
  exists w r rest, line = w ++ r :: rest /\ isdigit r = true /\ word_of line w w /\ user_word neovim w.

(** The commands of the table that only one of Vim and Neovim has. *)
Definition editor_specific (x : cmd) : Prop :=
  In x neovim_additional_commands \/ In x neovim_removed_commands.

(** * The text an Excmd keeps *)

(** The commands with the rules of ":help :bar": the ones without rules of their own, and
    :let, :const and :function when they only list things. *)
Definition bar_parsers : list text :=
  [ T "parse_cmd_common"; T "parse_cmd_usercmd"; T "parse_cmd_finish";
    T "parse_cmd_let"; T "parse_cmd_const"; T "parse_cmd_function" ].

(** [kept_text expression x filter rest s]: of the text [rest] after the head of the command
    [x], the node keeps [s], a part of the line. Backquotes can hold an [expression]. *)
Inductive kept_text (expression : text -> Prop) (x : cmd) (filter : bool) : text -> text -> Prop :=
| kt_bar s w u : In (c_parser x) bar_parsers -> text_of expression x filter s w u ->
    kept_text expression x filter (s ++ w ++ u) s
| kt_script s : In (c_parser x) script_parsers -> ~ (exists w t, all_white w /\ s = w ++ T "<<" ++ t) ->
    kept_text expression x filter s s
| kt_wincmd s w u : c_parser x = T "parse_wincmd" -> window_key s -> all_white w -> ends_command u ->
    kept_text expression x filter (s ++ w ++ u) s
| kt_syntax s u : c_parser x = T "parse_cmd_syntax" -> syntax_text u s -> kept_text expression x filter (s ++ u) s.

(** [takes_lines x rest m]: with [rest] after its head, the command [x] takes the lines
    below it, up to the marker [m], if any. *)
Inductive takes_lines (x : cmd) : text -> option text -> Prop :=
| tl_append s : In (c_parser x) [T "parse_cmd_append"; T "parse_cmd_insert"] ->
    takes_lines x s (Some (T "."))
| tl_keymap s : c_parser x = T "parse_cmd_loadkeymap" -> takes_lines x s None
| tl_script w1 w2 m : In (c_parser x) script_parsers -> all_white w1 -> all_white w2 ->
    starts_with iswhite m = false ->
    takes_lines x (w1 ++ T "<<" ++ w2 ++ m) (Some (match m with [] => T "." | _ => m end)).

(** [lines_below m post ls]: the lines [ls] stand below the end of line [post], up to and
    including the first one equal to the marker, or up to the end of the source. *)
Inductive lines_below (m : option text) : list (cell * N * N) -> list text -> Prop :=
| lb_end y : cell_of y = EOL -> lines_below m [y] []
| lb_marker y mid post s : cell_of y = EOL -> m = Some s -> map cell_of mid = map R s -> mid ++ post <> [] ->
    line_end post -> lines_below m (y :: mid ++ post) [s]
| lb_line y mid post s ls : cell_of y = EOL -> m <> Some s -> map cell_of mid = map R s ->
    lines_below m post ls -> lines_below m (y :: mid ++ post) (s :: ls).
