(** Generated from go/builtin_commands.go: one entry per line of the Go tables, in
    the same order. *)
From Verif Require Import Base Vnode.

(** go/builtin_commands.go:7-10  neovim_additional_commands. *)
Definition neovim_additional_commands : list cmd := [
  mkCmd (T "rshada") 3 (T "BANG|FILE1|TRLBAR|CMDWIN") (T "parse_cmd_common");
  mkCmd (T "wshada") 3 (T "BANG|FILE1|TRLBAR|CMDWIN") (T "parse_cmd_common")].

(** go/builtin_commands.go:11-19  neovim_removed_commands. *)
Definition neovim_removed_commands : list cmd := [
  mkCmd (T "Print") 1 (T "RANGE|WHOLEFOLD|COUNT|EXFLAGS|TRLBAR|CMDWIN") (T "parse_cmd_common");
  mkCmd (T "fixdel") 3 (T "TRLBAR|CMDWIN") (T "parse_cmd_common");
  mkCmd (T "helpfind") 5 (T "EXTRA|NOTRLCOM") (T "parse_cmd_common");
  mkCmd (T "open") 1 (T "RANGE|BANG|EXTRA") (T "parse_cmd_common");
  mkCmd (T "shell") 2 (T "TRLBAR|CMDWIN") (T "parse_cmd_common");
  mkCmd (T "tearoff") 2 (T "NEEDARG|EXTRA|TRLBAR|NOTRLCOM|CMDWIN") (T "parse_cmd_common");
  mkCmd (T "gvim") 2 (T "BANG|FILES|EDITCMD|ARGOPT|TRLBAR|CMDWIN") (T "parse_cmd_common")].

(** go/builtin_commands.go:20-593  builtin_commands. *)
Definition builtin_commands : list cmd := [
  mkCmd (T "append") 1 (T "BANG|RANGE|ZEROR|TRLBAR|CMDWIN|MODIFY") (T "parse_cmd_append");
  mkCmd (T "abbreviate") 2 (T "EXTRA|TRLBAR|NOTRLCOM|USECTRLV|CMDWIN") (T "parse_cmd_common");
  mkCmd (T "abclear") 3 (T "EXTRA|TRLBAR|CMDWIN") (T "parse_cmd_common");
  mkCmd (T "aboveleft") 3 (T "NEEDARG|EXTRA|NOTRLCOM") (T "parse_cmd_common");
  mkCmd (T "all") 2 (T "BANG|RANGE|NOTADR|COUNT|TRLBAR") (T "parse_cmd_common");
  mkCmd (T "amenu") 2 (T "RANGE|NOTADR|ZEROR|EXTRA|TRLBAR|NOTRLCOM|USECTRLV|CMDWIN") (T "parse_cmd_common");
  mkCmd (T "anoremenu") 2 (T "RANGE|NOTADR|ZEROR|EXTRA|TRLBAR|NOTRLCOM|USECTRLV|CMDWIN") (T "parse_cmd_common");
  mkCmd (T "args") 2 (T "BANG|FILES|EDITCMD|ARGOPT|TRLBAR") (T "parse_cmd_common");
  mkCmd (T "argadd") 4 (T "BANG|NEEDARG|RANGE|NOTADR|ZEROR|FILES|TRLBAR") (T "parse_cmd_common");
  mkCmd (T "argdelete") 4 (T "BANG|RANGE|NOTADR|FILES|TRLBAR") (T "parse_cmd_common");
  mkCmd (T "argedit") 4 (T "BANG|NEEDARG|RANGE|NOTADR|FILE1|EDITCMD|ARGOPT|TRLBAR") (T "parse_cmd_common");
  mkCmd (T "argdo") 5 (T "BANG|NEEDARG|EXTRA|NOTRLCOM") (T "parse_cmd_common");
  mkCmd (T "argglobal") 4 (T "BANG|FILES|EDITCMD|ARGOPT|TRLBAR") (T "parse_cmd_common");
  mkCmd (T "arglocal") 4 (T "BANG|FILES|EDITCMD|ARGOPT|TRLBAR") (T "parse_cmd_common");
  mkCmd (T "argument") 4 (T "BANG|RANGE|NOTADR|COUNT|EXTRA|EDITCMD|ARGOPT|TRLBAR") (T "parse_cmd_common");
  mkCmd (T "ascii") 2 (T "TRLBAR|SBOXOK|CMDWIN") (T "parse_cmd_common");
  mkCmd (T "autocmd") 2 (T "BANG|EXTRA|NOTRLCOM|USECTRLV|CMDWIN") (T "parse_cmd_common");
  mkCmd (T "augroup") 3 (T "BANG|WORD1|TRLBAR|CMDWIN") (T "parse_cmd_common");
  mkCmd (T "aunmenu") 3 (T "EXTRA|TRLBAR|NOTRLCOM|USECTRLV|CMDWIN") (T "parse_cmd_common");
  mkCmd (T "buffer") 1 (T "BANG|RANGE|NOTADR|BUFNAME|BUFUNL|COUNT|EXTRA|TRLBAR") (T "parse_cmd_common");
  mkCmd (T "bNext") 2 (T "BANG|RANGE|NOTADR|COUNT|TRLBAR") (T "parse_cmd_common");
  mkCmd (T "ball") 2 (T "RANGE|NOTADR|COUNT|TRLBAR") (T "parse_cmd_common");
  mkCmd (T "badd") 3 (T "NEEDARG|FILE1|EDITCMD|TRLBAR|CMDWIN") (T "parse_cmd_common");
  mkCmd (T "bdelete") 2 (T "BANG|RANGE|NOTADR|BUFNAME|COUNT|EXTRA|TRLBAR") (T "parse_cmd_common");
  mkCmd (T "behave") 2 (T "NEEDARG|WORD1|TRLBAR|CMDWIN") (T "parse_cmd_common");
  mkCmd (T "belowright") 3 (T "NEEDARG|EXTRA|NOTRLCOM") (T "parse_cmd_common");
  mkCmd (T "bfirst") 2 (T "BANG|RANGE|NOTADR|TRLBAR") (T "parse_cmd_common");
  mkCmd (T "blast") 2 (T "BANG|RANGE|NOTADR|TRLBAR") (T "parse_cmd_common");
  mkCmd (T "bmodified") 2 (T "BANG|RANGE|NOTADR|COUNT|TRLBAR") (T "parse_cmd_common");
  mkCmd (T "bnext") 2 (T "BANG|RANGE|NOTADR|COUNT|TRLBAR") (T "parse_cmd_common");
  mkCmd (T "botright") 2 (T "NEEDARG|EXTRA|NOTRLCOM") (T "parse_cmd_common");
  mkCmd (T "bprevious") 2 (T "BANG|RANGE|NOTADR|COUNT|TRLBAR") (T "parse_cmd_common");
  mkCmd (T "brewind") 2 (T "BANG|RANGE|NOTADR|TRLBAR") (T "parse_cmd_common");
  mkCmd (T "break") 4 (T "TRLBAR|SBOXOK|CMDWIN") (T "parse_cmd_break");
  mkCmd (T "breakadd") 6 (T "EXTRA|TRLBAR|CMDWIN") (T "parse_cmd_common");
  mkCmd (T "breakdel") 6 (T "EXTRA|TRLBAR|CMDWIN") (T "parse_cmd_common");
  mkCmd (T "breaklist") 6 (T "EXTRA|TRLBAR|CMDWIN") (T "parse_cmd_common");
  mkCmd (T "browse") 3 (T "NEEDARG|EXTRA|NOTRLCOM|CMDWIN") (T "parse_cmd_common");
  mkCmd (T "bufdo") 5 (T "BANG|NEEDARG|EXTRA|NOTRLCOM") (T "parse_cmd_common");
  mkCmd (T "buffers") 7 (T "BANG|TRLBAR|CMDWIN") (T "parse_cmd_common");
  mkCmd (T "bunload") 3 (T "BANG|RANGE|NOTADR|BUFNAME|COUNT|EXTRA|TRLBAR") (T "parse_cmd_common");
  mkCmd (T "bwipeout") 2 (T "BANG|RANGE|NOTADR|BUFNAME|BUFUNL|COUNT|EXTRA|TRLBAR") (T "parse_cmd_common");
  mkCmd (T "change") 1 (T "BANG|WHOLEFOLD|RANGE|COUNT|TRLBAR|CMDWIN|MODIFY") (T "parse_cmd_common");
  mkCmd (T "cNext") 2 (T "RANGE|NOTADR|COUNT|TRLBAR|BANG") (T "parse_cmd_common");
  mkCmd (T "cNfile") 3 (T "RANGE|NOTADR|COUNT|TRLBAR|BANG") (T "parse_cmd_common");
  mkCmd (T "cabbrev") 2 (T "EXTRA|TRLBAR|NOTRLCOM|USECTRLV|CMDWIN") (T "parse_cmd_common");
  mkCmd (T "cabclear") 4 (T "EXTRA|TRLBAR|CMDWIN") (T "parse_cmd_common");
  mkCmd (T "caddbuffer") 3 (T "RANGE|NOTADR|WORD1|TRLBAR") (T "parse_cmd_common");
  mkCmd (T "caddexpr") 5 (T "NEEDARG|WORD1|NOTRLCOM|TRLBAR") (T "parse_cmd_common");
  mkCmd (T "caddfile") 5 (T "TRLBAR|FILE1") (T "parse_cmd_common");
  mkCmd (T "call") 3 (T "RANGE|NEEDARG|EXTRA|NOTRLCOM|SBOXOK|CMDWIN") (T "parse_cmd_call");
  mkCmd (T "catch") 3 (T "EXTRA|SBOXOK|CMDWIN") (T "parse_cmd_catch");
  mkCmd (T "cbuffer") 2 (T "BANG|RANGE|NOTADR|WORD1|TRLBAR") (T "parse_cmd_common");
  mkCmd (T "cc") 2 (T "RANGE|NOTADR|COUNT|TRLBAR|BANG") (T "parse_cmd_common");
  mkCmd (T "cclose") 3 (T "RANGE|NOTADR|COUNT|TRLBAR") (T "parse_cmd_common");
  mkCmd (T "cd") 2 (T "BANG|FILE1|TRLBAR|CMDWIN") (T "parse_cmd_common");
  mkCmd (T "center") 2 (T "TRLBAR|RANGE|WHOLEFOLD|EXTRA|CMDWIN|MODIFY") (T "parse_cmd_common");
  mkCmd (T "cexpr") 3 (T "NEEDARG|WORD1|NOTRLCOM|TRLBAR|BANG") (T "parse_cmd_common");
  mkCmd (T "cfile") 2 (T "TRLBAR|FILE1|BANG") (T "parse_cmd_common");
  mkCmd (T "cfirst") 4 (T "RANGE|NOTADR|COUNT|TRLBAR|BANG") (T "parse_cmd_common");
  mkCmd (T "cgetbuffer") 5 (T "RANGE|NOTADR|WORD1|TRLBAR") (T "parse_cmd_common");
  mkCmd (T "cgetexpr") 5 (T "NEEDARG|WORD1|NOTRLCOM|TRLBAR") (T "parse_cmd_common");
  mkCmd (T "cgetfile") 2 (T "TRLBAR|FILE1") (T "parse_cmd_common");
  mkCmd (T "changes") 7 (T "TRLBAR|CMDWIN") (T "parse_cmd_common");
  mkCmd (T "chdir") 3 (T "BANG|FILE1|TRLBAR|CMDWIN") (T "parse_cmd_common");
  mkCmd (T "checkpath") 3 (T "TRLBAR|BANG|CMDWIN") (T "parse_cmd_common");
  mkCmd (T "checktime") 6 (T "RANGE|NOTADR|BUFNAME|COUNT|EXTRA|TRLBAR") (T "parse_cmd_common");
  mkCmd (T "clist") 2 (T "BANG|EXTRA|TRLBAR|CMDWIN") (T "parse_cmd_common");
  mkCmd (T "clast") 3 (T "RANGE|NOTADR|COUNT|TRLBAR|BANG") (T "parse_cmd_common");
  mkCmd (T "close") 3 (T "BANG|TRLBAR|CMDWIN") (T "parse_cmd_common");
  mkCmd (T "cmap") 2 (T "EXTRA|TRLBAR|NOTRLCOM|USECTRLV|CMDWIN") (T "parse_cmd_common");
  mkCmd (T "cmapclear") 5 (T "EXTRA|TRLBAR|CMDWIN") (T "parse_cmd_common");
  mkCmd (T "cmenu") 3 (T "RANGE|NOTADR|ZEROR|EXTRA|TRLBAR|NOTRLCOM|USECTRLV|CMDWIN") (T "parse_cmd_common");
  mkCmd (T "cnext") 2 (T "RANGE|NOTADR|COUNT|TRLBAR|BANG") (T "parse_cmd_common");
  mkCmd (T "cnewer") 4 (T "RANGE|NOTADR|COUNT|TRLBAR") (T "parse_cmd_common");
  mkCmd (T "cnfile") 3 (T "RANGE|NOTADR|COUNT|TRLBAR|BANG") (T "parse_cmd_common");
  mkCmd (T "cnoremap") 3 (T "EXTRA|TRLBAR|NOTRLCOM|USECTRLV|CMDWIN") (T "parse_cmd_common");
  mkCmd (T "cnoreabbrev") 6 (T "EXTRA|TRLBAR|NOTRLCOM|USECTRLV|CMDWIN") (T "parse_cmd_common");
  mkCmd (T "cnoremenu") 7 (T "RANGE|NOTADR|ZEROR|EXTRA|TRLBAR|NOTRLCOM|USECTRLV|CMDWIN") (T "parse_cmd_common");
  mkCmd (T "copy") 2 (T "RANGE|WHOLEFOLD|EXTRA|TRLBAR|CMDWIN|MODIFY") (T "parse_cmd_common");
  mkCmd (T "colder") 3 (T "RANGE|NOTADR|COUNT|TRLBAR") (T "parse_cmd_common");
  mkCmd (T "colorscheme") 4 (T "WORD1|TRLBAR|CMDWIN") (T "parse_cmd_common");
  mkCmd (T "command") 3 (T "EXTRA|BANG|NOTRLCOM|USECTRLV|CMDWIN") (T "parse_cmd_common");
  mkCmd (T "comclear") 4 (T "TRLBAR|CMDWIN") (T "parse_cmd_common");
  mkCmd (T "compiler") 4 (T "BANG|TRLBAR|WORD1|CMDWIN") (T "parse_cmd_common");
  mkCmd (T "continue") 3 (T "TRLBAR|SBOXOK|CMDWIN") (T "parse_cmd_continue");
  mkCmd (T "confirm") 4 (T "NEEDARG|EXTRA|NOTRLCOM|CMDWIN") (T "parse_cmd_common");
  mkCmd (T "copen") 4 (T "RANGE|NOTADR|COUNT|TRLBAR") (T "parse_cmd_common");
  mkCmd (T "cprevious") 2 (T "RANGE|NOTADR|COUNT|TRLBAR|BANG") (T "parse_cmd_common");
  mkCmd (T "cpfile") 3 (T "RANGE|NOTADR|COUNT|TRLBAR|BANG") (T "parse_cmd_common");
  mkCmd (T "cquit") 2 (T "TRLBAR|BANG") (T "parse_cmd_common");
  mkCmd (T "crewind") 2 (T "RANGE|NOTADR|COUNT|TRLBAR|BANG") (T "parse_cmd_common");
  mkCmd (T "cscope") 2 (T "EXTRA|NOTRLCOM|XFILE") (T "parse_cmd_common");
  mkCmd (T "cstag") 3 (T "BANG|TRLBAR|WORD1") (T "parse_cmd_common");
  mkCmd (T "cunmap") 2 (T "EXTRA|TRLBAR|NOTRLCOM|USECTRLV|CMDWIN") (T "parse_cmd_common");
  mkCmd (T "cunabbrev") 4 (T "EXTRA|TRLBAR|NOTRLCOM|USECTRLV|CMDWIN") (T "parse_cmd_common");
  mkCmd (T "cunmenu") 5 (T "EXTRA|TRLBAR|NOTRLCOM|USECTRLV|CMDWIN") (T "parse_cmd_common");
  mkCmd (T "cwindow") 2 (T "RANGE|NOTADR|COUNT|TRLBAR") (T "parse_cmd_common");
  mkCmd (T "delete") 1 (T "RANGE|WHOLEFOLD|REGSTR|COUNT|TRLBAR|CMDWIN|MODIFY") (T "parse_cmd_common");
  mkCmd (T "delmarks") 4 (T "BANG|EXTRA|TRLBAR|CMDWIN") (T "parse_cmd_common");
  mkCmd (T "debug") 3 (T "NEEDARG|EXTRA|NOTRLCOM|SBOXOK|CMDWIN") (T "parse_cmd_common");
  mkCmd (T "debuggreedy") 6 (T "RANGE|NOTADR|ZEROR|TRLBAR|CMDWIN") (T "parse_cmd_common");
  mkCmd (T "delcommand") 4 (T "NEEDARG|WORD1|TRLBAR|CMDWIN") (T "parse_cmd_common");
  mkCmd (T "delfunction") 4 (T "BANG|NEEDARG|WORD1|CMDWIN") (T "parse_cmd_delfunction");
  mkCmd (T "diffupdate") 3 (T "BANG|TRLBAR") (T "parse_cmd_common");
  mkCmd (T "diffget") 5 (T "RANGE|EXTRA|TRLBAR|MODIFY") (T "parse_cmd_common");
  mkCmd (T "diffoff") 5 (T "BANG|TRLBAR") (T "parse_cmd_common");
  mkCmd (T "diffpatch") 5 (T "EXTRA|FILE1|TRLBAR|MODIFY") (T "parse_cmd_common");
  mkCmd (T "diffput") 6 (T "RANGE|EXTRA|TRLBAR") (T "parse_cmd_common");
  mkCmd (T "diffsplit") 5 (T "EXTRA|FILE1|TRLBAR") (T "parse_cmd_common");
  mkCmd (T "diffthis") 5 (T "TRLBAR") (T "parse_cmd_common");
  mkCmd (T "digraphs") 3 (T "EXTRA|TRLBAR|CMDWIN") (T "parse_cmd_common");
  mkCmd (T "display") 2 (T "EXTRA|NOTRLCOM|TRLBAR|SBOXOK|CMDWIN") (T "parse_cmd_common");
  mkCmd (T "djump") 2 (T "BANG|RANGE|DFLALL|WHOLEFOLD|EXTRA") (T "parse_cmd_common");
  mkCmd (T "dlist") 2 (T "BANG|RANGE|DFLALL|WHOLEFOLD|EXTRA|CMDWIN") (T "parse_cmd_common");
  mkCmd (T "doautocmd") 2 (T "EXTRA|TRLBAR|CMDWIN") (T "parse_cmd_common");
  mkCmd (T "doautoall") 7 (T "EXTRA|TRLBAR|CMDWIN") (T "parse_cmd_common");
  mkCmd (T "drop") 2 (T "FILES|EDITCMD|NEEDARG|ARGOPT|TRLBAR") (T "parse_cmd_common");
  mkCmd (T "dsearch") 2 (T "BANG|RANGE|DFLALL|WHOLEFOLD|EXTRA|CMDWIN") (T "parse_cmd_common");
  mkCmd (T "dsplit") 3 (T "BANG|RANGE|DFLALL|WHOLEFOLD|EXTRA") (T "parse_cmd_common");
  mkCmd (T "edit") 1 (T "BANG|FILE1|EDITCMD|ARGOPT|TRLBAR") (T "parse_cmd_common");
  mkCmd (T "earlier") 2 (T "TRLBAR|EXTRA|NOSPC|CMDWIN") (T "parse_cmd_common");
  mkCmd (T "echo") 2 (T "EXTRA|NOTRLCOM|SBOXOK|CMDWIN") (T "parse_cmd_echo");
  mkCmd (T "echoerr") 5 (T "EXTRA|NOTRLCOM|SBOXOK|CMDWIN") (T "parse_cmd_echoerr");
  mkCmd (T "echohl") 5 (T "EXTRA|TRLBAR|SBOXOK|CMDWIN") (T "parse_cmd_echohl");
  mkCmd (T "echomsg") 5 (T "EXTRA|NOTRLCOM|SBOXOK|CMDWIN") (T "parse_cmd_echomsg");
  mkCmd (T "echon") 5 (T "EXTRA|NOTRLCOM|SBOXOK|CMDWIN") (T "parse_cmd_echon");
  mkCmd (T "else") 2 (T "TRLBAR|SBOXOK|CMDWIN") (T "parse_cmd_else");
  mkCmd (T "elseif") 5 (T "EXTRA|NOTRLCOM|SBOXOK|CMDWIN") (T "parse_cmd_elseif");
  mkCmd (T "emenu") 2 (T "NEEDARG|EXTRA|TRLBAR|NOTRLCOM|RANGE|NOTADR|CMDWIN") (T "parse_cmd_common");
  mkCmd (T "endif") 2 (T "TRLBAR|SBOXOK|CMDWIN") (T "parse_cmd_endif");
  mkCmd (T "endfor") 5 (T "TRLBAR|SBOXOK|CMDWIN") (T "parse_cmd_endfor");
  mkCmd (T "endfunction") 4 (T "TRLBAR|CMDWIN") (T "parse_cmd_endfunction");
  mkCmd (T "endtry") 4 (T "TRLBAR|SBOXOK|CMDWIN") (T "parse_cmd_endtry");
  mkCmd (T "endwhile") 4 (T "TRLBAR|SBOXOK|CMDWIN") (T "parse_cmd_endwhile");
  mkCmd (T "enew") 3 (T "BANG|TRLBAR") (T "parse_cmd_common");
  mkCmd (T "eval") 2 (T "EXTRA|NOTRLCOM|SBOXOK|CMDWIN") (T "parse_cmd_eval");
  mkCmd (T "ex") 2 (T "BANG|FILE1|EDITCMD|ARGOPT|TRLBAR") (T "parse_cmd_common");
  mkCmd (T "execute") 3 (T "EXTRA|NOTRLCOM|SBOXOK|CMDWIN") (T "parse_cmd_execute");
  mkCmd (T "exit") 3 (T "RANGE|WHOLEFOLD|BANG|FILE1|ARGOPT|DFLALL|TRLBAR|CMDWIN") (T "parse_cmd_common");
  mkCmd (T "exusage") 3 (T "TRLBAR") (T "parse_cmd_common");
  mkCmd (T "file") 1 (T "RANGE|NOTADR|ZEROR|BANG|FILE1|TRLBAR") (T "parse_cmd_common");
  mkCmd (T "files") 5 (T "BANG|TRLBAR|CMDWIN") (T "parse_cmd_common");
  mkCmd (T "filetype") 5 (T "EXTRA|TRLBAR|CMDWIN") (T "parse_cmd_common");
  mkCmd (T "find") 3 (T "RANGE|NOTADR|BANG|FILE1|EDITCMD|ARGOPT|TRLBAR") (T "parse_cmd_common");
  mkCmd (T "finally") 4 (T "TRLBAR|SBOXOK|CMDWIN") (T "parse_cmd_finally");
  mkCmd (T "finish") 4 (T "TRLBAR|SBOXOK|CMDWIN") (T "parse_cmd_finish");
  mkCmd (T "first") 3 (T "EXTRA|BANG|EDITCMD|ARGOPT|TRLBAR") (T "parse_cmd_common");
  mkCmd (T "fixdel") 3 (T "TRLBAR|CMDWIN") (T "parse_cmd_common");
  mkCmd (T "fold") 2 (T "RANGE|WHOLEFOLD|TRLBAR|SBOXOK|CMDWIN") (T "parse_cmd_common");
  mkCmd (T "foldclose") 5 (T "RANGE|BANG|WHOLEFOLD|TRLBAR|SBOXOK|CMDWIN") (T "parse_cmd_common");
  mkCmd (T "folddoopen") 5 (T "RANGE|DFLALL|NEEDARG|EXTRA|NOTRLCOM") (T "parse_cmd_common");
  mkCmd (T "folddoclosed") 7 (T "RANGE|DFLALL|NEEDARG|EXTRA|NOTRLCOM") (T "parse_cmd_common");
  mkCmd (T "foldopen") 5 (T "RANGE|BANG|WHOLEFOLD|TRLBAR|SBOXOK|CMDWIN") (T "parse_cmd_common");
  mkCmd (T "for") 3 (T "EXTRA|NOTRLCOM|SBOXOK|CMDWIN") (T "parse_cmd_for");
  mkCmd (T "function") 2 (T "EXTRA|BANG|CMDWIN") (T "parse_cmd_function");
  mkCmd (T "global") 1 (T "RANGE|WHOLEFOLD|BANG|EXTRA|DFLALL|SBOXOK|CMDWIN") (T "parse_cmd_common");
  mkCmd (T "goto") 2 (T "RANGE|NOTADR|COUNT|TRLBAR|SBOXOK|CMDWIN") (T "parse_cmd_common");
  mkCmd (T "grep") 2 (T "RANGE|NOTADR|BANG|NEEDARG|EXTRA|NOTRLCOM|TRLBAR|XFILE") (T "parse_cmd_common");
  mkCmd (T "grepadd") 5 (T "RANGE|NOTADR|BANG|NEEDARG|EXTRA|NOTRLCOM|TRLBAR|XFILE") (T "parse_cmd_common");
  mkCmd (T "gui") 2 (T "BANG|FILES|EDITCMD|ARGOPT|TRLBAR|CMDWIN") (T "parse_cmd_common");
  mkCmd (T "gvim") 2 (T "BANG|FILES|EDITCMD|ARGOPT|TRLBAR|CMDWIN") (T "parse_cmd_common");
  mkCmd (T "hardcopy") 2 (T "RANGE|COUNT|EXTRA|TRLBAR|DFLALL|BANG") (T "parse_cmd_common");
  mkCmd (T "help") 1 (T "BANG|EXTRA|NOTRLCOM") (T "parse_cmd_common");
  mkCmd (T "helpfind") 5 (T "EXTRA|NOTRLCOM") (T "parse_cmd_common");
  mkCmd (T "helpgrep") 5 (T "EXTRA|NOTRLCOM|NEEDARG") (T "parse_cmd_common");
  mkCmd (T "helptags") 5 (T "NEEDARG|FILES|TRLBAR|CMDWIN") (T "parse_cmd_common");
  mkCmd (T "highlight") 2 (T "BANG|EXTRA|TRLBAR|SBOXOK|CMDWIN") (T "parse_cmd_common");
  mkCmd (T "hide") 3 (T "BANG|EXTRA|NOTRLCOM") (T "parse_cmd_common");
  mkCmd (T "history") 3 (T "EXTRA|TRLBAR|CMDWIN") (T "parse_cmd_common");
  mkCmd (T "insert") 1 (T "BANG|RANGE|TRLBAR|CMDWIN|MODIFY") (T "parse_cmd_insert");
  mkCmd (T "iabbrev") 2 (T "EXTRA|TRLBAR|NOTRLCOM|USECTRLV|CMDWIN") (T "parse_cmd_common");
  mkCmd (T "iabclear") 4 (T "EXTRA|TRLBAR|CMDWIN") (T "parse_cmd_common");
  mkCmd (T "if") 2 (T "EXTRA|NOTRLCOM|SBOXOK|CMDWIN") (T "parse_cmd_if");
  mkCmd (T "ijump") 2 (T "BANG|RANGE|DFLALL|WHOLEFOLD|EXTRA") (T "parse_cmd_common");
  mkCmd (T "ilist") 2 (T "BANG|RANGE|DFLALL|WHOLEFOLD|EXTRA|CMDWIN") (T "parse_cmd_common");
  mkCmd (T "imap") 2 (T "EXTRA|TRLBAR|NOTRLCOM|USECTRLV|CMDWIN") (T "parse_cmd_common");
  mkCmd (T "imapclear") 5 (T "EXTRA|TRLBAR|CMDWIN") (T "parse_cmd_common");
  mkCmd (T "imenu") 3 (T "RANGE|NOTADR|ZEROR|EXTRA|TRLBAR|NOTRLCOM|USECTRLV|CMDWIN") (T "parse_cmd_common");
  mkCmd (T "inoremap") 3 (T "EXTRA|TRLBAR|NOTRLCOM|USECTRLV|CMDWIN") (T "parse_cmd_common");
  mkCmd (T "inoreabbrev") 6 (T "EXTRA|TRLBAR|NOTRLCOM|USECTRLV|CMDWIN") (T "parse_cmd_common");
  mkCmd (T "inoremenu") 7 (T "RANGE|NOTADR|ZEROR|EXTRA|TRLBAR|NOTRLCOM|USECTRLV|CMDWIN") (T "parse_cmd_common");
  mkCmd (T "intro") 3 (T "TRLBAR|CMDWIN") (T "parse_cmd_common");
  mkCmd (T "isearch") 2 (T "BANG|RANGE|DFLALL|WHOLEFOLD|EXTRA|CMDWIN") (T "parse_cmd_common");
  mkCmd (T "isplit") 3 (T "BANG|RANGE|DFLALL|WHOLEFOLD|EXTRA") (T "parse_cmd_common");
  mkCmd (T "iunmap") 2 (T "EXTRA|TRLBAR|NOTRLCOM|USECTRLV|CMDWIN") (T "parse_cmd_common");
  mkCmd (T "iunabbrev") 4 (T "EXTRA|TRLBAR|NOTRLCOM|USECTRLV|CMDWIN") (T "parse_cmd_common");
  mkCmd (T "iunmenu") 5 (T "EXTRA|TRLBAR|NOTRLCOM|USECTRLV|CMDWIN") (T "parse_cmd_common");
  mkCmd (T "join") 1 (T "BANG|RANGE|WHOLEFOLD|COUNT|EXFLAGS|TRLBAR|CMDWIN|MODIFY") (T "parse_cmd_common");
  mkCmd (T "jumps") 2 (T "TRLBAR|CMDWIN") (T "parse_cmd_common");
  mkCmd (T "k") 1 (T "RANGE|WORD1|TRLBAR|SBOXOK|CMDWIN") (T "parse_cmd_common");
  mkCmd (T "keepalt") 5 (T "NEEDARG|EXTRA|NOTRLCOM") (T "parse_cmd_common");
  mkCmd (T "keepmarks") 3 (T "NEEDARG|EXTRA|NOTRLCOM") (T "parse_cmd_common");
  mkCmd (T "keepjumps") 5 (T "NEEDARG|EXTRA|NOTRLCOM") (T "parse_cmd_common");
  mkCmd (T "keeppatterns") 5 (T "NEEDARG|EXTRA|NOTRLCOM") (T "parse_cmd_common");
  mkCmd (T "lNext") 2 (T "RANGE|NOTADR|COUNT|TRLBAR|BANG") (T "parse_cmd_common");
  mkCmd (T "lNfile") 3 (T "RANGE|NOTADR|COUNT|TRLBAR|BANG") (T "parse_cmd_common");
  mkCmd (T "list") 1 (T "RANGE|WHOLEFOLD|COUNT|EXFLAGS|TRLBAR|CMDWIN") (T "parse_cmd_common");
  mkCmd (T "laddexpr") 3 (T "NEEDARG|WORD1|NOTRLCOM|TRLBAR") (T "parse_cmd_common");
  mkCmd (T "laddbuffer") 5 (T "RANGE|NOTADR|WORD1|TRLBAR") (T "parse_cmd_common");
  mkCmd (T "laddfile") 5 (T "TRLBAR|FILE1") (T "parse_cmd_common");
  mkCmd (T "last") 2 (T "EXTRA|BANG|EDITCMD|ARGOPT|TRLBAR") (T "parse_cmd_common");
  mkCmd (T "language") 3 (T "EXTRA|TRLBAR|CMDWIN") (T "parse_cmd_common");
  mkCmd (T "later") 3 (T "TRLBAR|EXTRA|NOSPC|CMDWIN") (T "parse_cmd_common");
  mkCmd (T "lbuffer") 2 (T "BANG|RANGE|NOTADR|WORD1|TRLBAR") (T "parse_cmd_common");
  mkCmd (T "lcd") 2 (T "BANG|FILE1|TRLBAR|CMDWIN") (T "parse_cmd_common");
  mkCmd (T "lchdir") 3 (T "BANG|FILE1|TRLBAR|CMDWIN") (T "parse_cmd_common");
  mkCmd (T "lclose") 3 (T "RANGE|NOTADR|COUNT|TRLBAR") (T "parse_cmd_common");
  mkCmd (T "lcscope") 3 (T "EXTRA|NOTRLCOM|XFILE") (T "parse_cmd_common");
  mkCmd (T "left") 2 (T "TRLBAR|RANGE|WHOLEFOLD|EXTRA|CMDWIN|MODIFY") (T "parse_cmd_common");
  mkCmd (T "leftabove") 5 (T "NEEDARG|EXTRA|NOTRLCOM") (T "parse_cmd_common");
  mkCmd (T "let") 3 (T "EXTRA|NOTRLCOM|SBOXOK|CMDWIN") (T "parse_cmd_let");
  mkCmd (T "const") 4 (T "EXTRA|NOTRLCOM|SBOXOK|CMDWIN") (T "parse_cmd_const");
  mkCmd (T "lexpr") 3 (T "NEEDARG|WORD1|NOTRLCOM|TRLBAR|BANG") (T "parse_cmd_common");
  mkCmd (T "lfile") 2 (T "TRLBAR|FILE1|BANG") (T "parse_cmd_common");
  mkCmd (T "lfirst") 4 (T "RANGE|NOTADR|COUNT|TRLBAR|BANG") (T "parse_cmd_common");
  mkCmd (T "lgetbuffer") 5 (T "RANGE|NOTADR|WORD1|TRLBAR") (T "parse_cmd_common");
  mkCmd (T "lgetexpr") 5 (T "NEEDARG|WORD1|NOTRLCOM|TRLBAR") (T "parse_cmd_common");
  mkCmd (T "lgetfile") 2 (T "TRLBAR|FILE1") (T "parse_cmd_common");
  mkCmd (T "lgrep") 3 (T "RANGE|NOTADR|BANG|NEEDARG|EXTRA|NOTRLCOM|TRLBAR|XFILE") (T "parse_cmd_common");
  mkCmd (T "lgrepadd") 6 (T "RANGE|NOTADR|BANG|NEEDARG|EXTRA|NOTRLCOM|TRLBAR|XFILE") (T "parse_cmd_common");
  mkCmd (T "lhelpgrep") 2 (T "EXTRA|NOTRLCOM|NEEDARG") (T "parse_cmd_common");
  mkCmd (T "ll") 2 (T "RANGE|NOTADR|COUNT|TRLBAR|BANG") (T "parse_cmd_common");
  mkCmd (T "llast") 3 (T "RANGE|NOTADR|COUNT|TRLBAR|BANG") (T "parse_cmd_common");
  mkCmd (T "list") 3 (T "BANG|EXTRA|TRLBAR|CMDWIN") (T "parse_cmd_common");
  mkCmd (T "lmake") 4 (T "BANG|EXTRA|NOTRLCOM|TRLBAR|XFILE") (T "parse_cmd_common");
  mkCmd (T "lmap") 2 (T "EXTRA|TRLBAR|NOTRLCOM|USECTRLV|CMDWIN") (T "parse_cmd_common");
  mkCmd (T "lmapclear") 5 (T "EXTRA|TRLBAR|CMDWIN") (T "parse_cmd_common");
  mkCmd (T "lnext") 3 (T "RANGE|NOTADR|COUNT|TRLBAR|BANG") (T "parse_cmd_common");
  mkCmd (T "lnewer") 4 (T "RANGE|NOTADR|COUNT|TRLBAR") (T "parse_cmd_common");
  mkCmd (T "lnfile") 3 (T "RANGE|NOTADR|COUNT|TRLBAR|BANG") (T "parse_cmd_common");
  mkCmd (T "lnoremap") 2 (T "EXTRA|TRLBAR|NOTRLCOM|USECTRLV|CMDWIN") (T "parse_cmd_common");
  mkCmd (T "loadkeymap") 5 (T "CMDWIN") (T "parse_cmd_loadkeymap");
  mkCmd (T "loadview") 2 (T "FILE1|TRLBAR") (T "parse_cmd_common");
  mkCmd (T "lockmarks") 3 (T "NEEDARG|EXTRA|NOTRLCOM") (T "parse_cmd_common");
  mkCmd (T "lockvar") 5 (T "BANG|EXTRA|NEEDARG|SBOXOK|CMDWIN") (T "parse_cmd_lockvar");
  mkCmd (T "lolder") 3 (T "RANGE|NOTADR|COUNT|TRLBAR") (T "parse_cmd_common");
  mkCmd (T "lopen") 3 (T "RANGE|NOTADR|COUNT|TRLBAR") (T "parse_cmd_common");
  mkCmd (T "lprevious") 2 (T "RANGE|NOTADR|COUNT|TRLBAR|BANG") (T "parse_cmd_common");
  mkCmd (T "lpfile") 3 (T "RANGE|NOTADR|COUNT|TRLBAR|BANG") (T "parse_cmd_common");
  mkCmd (T "lrewind") 2 (T "RANGE|NOTADR|COUNT|TRLBAR|BANG") (T "parse_cmd_common");
  mkCmd (T "ls") 2 (T "BANG|TRLBAR|CMDWIN") (T "parse_cmd_common");
  mkCmd (T "ltag") 2 (T "NOTADR|TRLBAR|BANG|WORD1") (T "parse_cmd_common");
  mkCmd (T "lunmap") 2 (T "EXTRA|TRLBAR|NOTRLCOM|USECTRLV|CMDWIN") (T "parse_cmd_common");
  mkCmd (T "lua") 3 (T "RANGE|EXTRA|NEEDARG|CMDWIN") (T "parse_cmd_lua");
  mkCmd (T "luado") 4 (T "RANGE|DFLALL|EXTRA|NEEDARG|CMDWIN") (T "parse_cmd_common");
  mkCmd (T "luafile") 4 (T "RANGE|FILE1|NEEDARG|CMDWIN") (T "parse_cmd_common");
  mkCmd (T "lvimgrep") 2 (T "RANGE|NOTADR|BANG|NEEDARG|EXTRA|NOTRLCOM|TRLBAR|XFILE") (T "parse_cmd_common");
  mkCmd (T "lvimgrepadd") 9 (T "RANGE|NOTADR|BANG|NEEDARG|EXTRA|NOTRLCOM|TRLBAR|XFILE") (T "parse_cmd_common");
  mkCmd (T "lwindow") 2 (T "RANGE|NOTADR|COUNT|TRLBAR") (T "parse_cmd_common");
  mkCmd (T "move") 1 (T "RANGE|WHOLEFOLD|EXTRA|TRLBAR|CMDWIN|MODIFY") (T "parse_cmd_common");
  mkCmd (T "mark") 2 (T "RANGE|WORD1|TRLBAR|SBOXOK|CMDWIN") (T "parse_cmd_common");
  mkCmd (T "make") 3 (T "BANG|EXTRA|NOTRLCOM|TRLBAR|XFILE") (T "parse_cmd_common");
  mkCmd (T "map") 3 (T "BANG|EXTRA|TRLBAR|NOTRLCOM|USECTRLV|CMDWIN") (T "parse_cmd_common");
  mkCmd (T "mapclear") 4 (T "EXTRA|BANG|TRLBAR|CMDWIN") (T "parse_cmd_common");
  mkCmd (T "marks") 5 (T "EXTRA|TRLBAR|CMDWIN") (T "parse_cmd_common");
  mkCmd (T "match") 3 (T "RANGE|NOTADR|EXTRA|CMDWIN") (T "parse_cmd_common");
  mkCmd (T "menu") 2 (T "RANGE|NOTADR|ZEROR|BANG|EXTRA|TRLBAR|NOTRLCOM|USECTRLV|CMDWIN") (T "parse_cmd_common");
  mkCmd (T "menutranslate") 5 (T "EXTRA|TRLBAR|NOTRLCOM|USECTRLV|CMDWIN") (T "parse_cmd_common");
  mkCmd (T "messages") 3 (T "TRLBAR|CMDWIN") (T "parse_cmd_common");
  mkCmd (T "mkexrc") 2 (T "BANG|FILE1|TRLBAR|CMDWIN") (T "parse_cmd_common");
  mkCmd (T "mksession") 3 (T "BANG|FILE1|TRLBAR") (T "parse_cmd_common");
  mkCmd (T "mkspell") 4 (T "BANG|NEEDARG|EXTRA|NOTRLCOM|TRLBAR|XFILE") (T "parse_cmd_common");
  mkCmd (T "mkvimrc") 3 (T "BANG|FILE1|TRLBAR|CMDWIN") (T "parse_cmd_common");
  mkCmd (T "mkview") 5 (T "BANG|FILE1|TRLBAR") (T "parse_cmd_common");
  mkCmd (T "mode") 3 (T "WORD1|TRLBAR|CMDWIN") (T "parse_cmd_common");
  mkCmd (T "mzscheme") 2 (T "RANGE|EXTRA|DFLALL|NEEDARG|CMDWIN|SBOXOK") (T "parse_cmd_mzscheme");
  mkCmd (T "mzfile") 3 (T "RANGE|FILE1|NEEDARG|CMDWIN") (T "parse_cmd_common");
  mkCmd (T "nbclose") 3 (T "TRLBAR|CMDWIN") (T "parse_cmd_common");
  mkCmd (T "nbkey") 2 (T "EXTRA|NOTADR|NEEDARG") (T "parse_cmd_common");
  mkCmd (T "nbstart") 3 (T "WORD1|TRLBAR|CMDWIN") (T "parse_cmd_common");
  mkCmd (T "next") 1 (T "RANGE|NOTADR|BANG|FILES|EDITCMD|ARGOPT|TRLBAR") (T "parse_cmd_common");
  mkCmd (T "new") 3 (T "BANG|FILE1|RANGE|NOTADR|EDITCMD|ARGOPT|TRLBAR") (T "parse_cmd_common");
  mkCmd (T "nmap") 2 (T "EXTRA|TRLBAR|NOTRLCOM|USECTRLV|CMDWIN") (T "parse_cmd_common");
  mkCmd (T "nmapclear") 5 (T "EXTRA|TRLBAR|CMDWIN") (T "parse_cmd_common");
  mkCmd (T "nmenu") 3 (T "RANGE|NOTADR|ZEROR|EXTRA|TRLBAR|NOTRLCOM|USECTRLV|CMDWIN") (T "parse_cmd_common");
  mkCmd (T "nnoremap") 2 (T "EXTRA|TRLBAR|NOTRLCOM|USECTRLV|CMDWIN") (T "parse_cmd_common");
  mkCmd (T "nnoremenu") 7 (T "RANGE|NOTADR|ZEROR|EXTRA|TRLBAR|NOTRLCOM|USECTRLV|CMDWIN") (T "parse_cmd_common");
  mkCmd (T "noautocmd") 3 (T "NEEDARG|EXTRA|NOTRLCOM") (T "parse_cmd_common");
  mkCmd (T "noremap") 2 (T "BANG|EXTRA|TRLBAR|NOTRLCOM|USECTRLV|CMDWIN") (T "parse_cmd_common");
  mkCmd (T "nohlsearch") 3 (T "TRLBAR|SBOXOK|CMDWIN") (T "parse_cmd_common");
  mkCmd (T "noreabbrev") 5 (T "EXTRA|TRLBAR|NOTRLCOM|USECTRLV|CMDWIN") (T "parse_cmd_common");
  mkCmd (T "noremenu") 6 (T "RANGE|NOTADR|ZEROR|BANG|EXTRA|TRLBAR|NOTRLCOM|USECTRLV|CMDWIN") (T "parse_cmd_common");
  mkCmd (T "normal") 4 (T "RANGE|BANG|EXTRA|NEEDARG|NOTRLCOM|USECTRLV|SBOXOK|CMDWIN") (T "parse_cmd_common");
  mkCmd (T "number") 2 (T "RANGE|WHOLEFOLD|COUNT|EXFLAGS|TRLBAR|CMDWIN") (T "parse_cmd_common");
  mkCmd (T "nunmap") 3 (T "EXTRA|TRLBAR|NOTRLCOM|USECTRLV|CMDWIN") (T "parse_cmd_common");
  mkCmd (T "nunmenu") 5 (T "EXTRA|TRLBAR|NOTRLCOM|USECTRLV|CMDWIN") (T "parse_cmd_common");
  mkCmd (T "oldfiles") 2 (T "BANG|TRLBAR|SBOXOK|CMDWIN") (T "parse_cmd_common");
  mkCmd (T "open") 1 (T "RANGE|BANG|EXTRA") (T "parse_cmd_common");
  mkCmd (T "omap") 2 (T "EXTRA|TRLBAR|NOTRLCOM|USECTRLV|CMDWIN") (T "parse_cmd_common");
  mkCmd (T "omapclear") 5 (T "EXTRA|TRLBAR|CMDWIN") (T "parse_cmd_common");
  mkCmd (T "omenu") 3 (T "RANGE|NOTADR|ZEROR|EXTRA|TRLBAR|NOTRLCOM|USECTRLV|CMDWIN") (T "parse_cmd_common");
  mkCmd (T "only") 2 (T "BANG|TRLBAR") (T "parse_cmd_common");
  mkCmd (T "onoremap") 3 (T "EXTRA|TRLBAR|NOTRLCOM|USECTRLV|CMDWIN") (T "parse_cmd_common");
  mkCmd (T "onoremenu") 7 (T "RANGE|NOTADR|ZEROR|EXTRA|TRLBAR|NOTRLCOM|USECTRLV|CMDWIN") (T "parse_cmd_common");
  mkCmd (T "options") 3 (T "TRLBAR") (T "parse_cmd_common");
  mkCmd (T "ounmap") 2 (T "EXTRA|TRLBAR|NOTRLCOM|USECTRLV|CMDWIN") (T "parse_cmd_common");
  mkCmd (T "ounmenu") 5 (T "EXTRA|TRLBAR|NOTRLCOM|USECTRLV|CMDWIN") (T "parse_cmd_common");
  mkCmd (T "ownsyntax") 2 (T "EXTRA|NOTRLCOM|SBOXOK|CMDWIN") (T "parse_cmd_common");
  mkCmd (T "pclose") 2 (T "BANG|TRLBAR") (T "parse_cmd_common");
  mkCmd (T "pedit") 3 (T "BANG|FILE1|EDITCMD|ARGOPT|TRLBAR") (T "parse_cmd_common");
  mkCmd (T "perl") 2 (T "RANGE|EXTRA|DFLALL|NEEDARG|SBOXOK|CMDWIN") (T "parse_cmd_perl");
  mkCmd (T "print") 1 (T "RANGE|WHOLEFOLD|COUNT|EXFLAGS|TRLBAR|CMDWIN|SBOXOK") (T "parse_cmd_common");
  mkCmd (T "profdel") 5 (T "EXTRA|TRLBAR|CMDWIN") (T "parse_cmd_common");
  mkCmd (T "profile") 4 (T "BANG|EXTRA|TRLBAR|CMDWIN") (T "parse_cmd_common");
  mkCmd (T "promptfind") 3 (T "EXTRA|NOTRLCOM|CMDWIN") (T "parse_cmd_common");
  mkCmd (T "promptrepl") 7 (T "EXTRA|NOTRLCOM|CMDWIN") (T "parse_cmd_common");
  mkCmd (T "perldo") 5 (T "RANGE|EXTRA|DFLALL|NEEDARG|CMDWIN") (T "parse_cmd_common");
  mkCmd (T "pop") 2 (T "RANGE|NOTADR|BANG|COUNT|TRLBAR|ZEROR") (T "parse_cmd_common");
  mkCmd (T "popup") 4 (T "NEEDARG|EXTRA|BANG|TRLBAR|NOTRLCOM|CMDWIN") (T "parse_cmd_common");
  mkCmd (T "ppop") 2 (T "RANGE|NOTADR|BANG|COUNT|TRLBAR|ZEROR") (T "parse_cmd_common");
  mkCmd (T "preserve") 3 (T "TRLBAR") (T "parse_cmd_common");
  mkCmd (T "previous") 4 (T "EXTRA|RANGE|NOTADR|COUNT|BANG|EDITCMD|ARGOPT|TRLBAR") (T "parse_cmd_common");
  mkCmd (T "psearch") 2 (T "BANG|RANGE|WHOLEFOLD|DFLALL|EXTRA") (T "parse_cmd_common");
  mkCmd (T "ptag") 2 (T "RANGE|NOTADR|BANG|WORD1|TRLBAR|ZEROR") (T "parse_cmd_common");
  mkCmd (T "ptNext") 3 (T "RANGE|NOTADR|BANG|TRLBAR|ZEROR") (T "parse_cmd_common");
  mkCmd (T "ptfirst") 3 (T "RANGE|NOTADR|BANG|TRLBAR|ZEROR") (T "parse_cmd_common");
  mkCmd (T "ptjump") 3 (T "BANG|TRLBAR|WORD1") (T "parse_cmd_common");
  mkCmd (T "ptlast") 3 (T "BANG|TRLBAR") (T "parse_cmd_common");
  mkCmd (T "ptnext") 3 (T "RANGE|NOTADR|BANG|TRLBAR|ZEROR") (T "parse_cmd_common");
  mkCmd (T "ptprevious") 3 (T "RANGE|NOTADR|BANG|TRLBAR|ZEROR") (T "parse_cmd_common");
  mkCmd (T "ptrewind") 3 (T "RANGE|NOTADR|BANG|TRLBAR|ZEROR") (T "parse_cmd_common");
  mkCmd (T "ptselect") 3 (T "BANG|TRLBAR|WORD1") (T "parse_cmd_common");
  mkCmd (T "put") 2 (T "RANGE|WHOLEFOLD|BANG|REGSTR|TRLBAR|ZEROR|CMDWIN|MODIFY") (T "parse_cmd_common");
  mkCmd (T "pwd") 2 (T "TRLBAR|CMDWIN") (T "parse_cmd_common");
  mkCmd (T "py3") 3 (T "RANGE|EXTRA|NEEDARG|CMDWIN") (T "parse_cmd_python3");
  mkCmd (T "python3") 7 (T "RANGE|EXTRA|NEEDARG|CMDWIN") (T "parse_cmd_python3");
  mkCmd (T "py3file") 4 (T "RANGE|FILE1|NEEDARG|CMDWIN") (T "parse_cmd_common");
  mkCmd (T "python") 2 (T "RANGE|EXTRA|NEEDARG|CMDWIN") (T "parse_cmd_python");
  mkCmd (T "pyfile") 3 (T "RANGE|FILE1|NEEDARG|CMDWIN") (T "parse_cmd_common");
  mkCmd (T "pydo") 3 (T "RANGE|DFLALL|EXTRA|NEEDARG|CMDWIN") (T "parse_cmd_common");
  mkCmd (T "py3do") 4 (T "RANGE|DFLALL|EXTRA|NEEDARG|CMDWIN") (T "parse_cmd_common");
  mkCmd (T "quit") 1 (T "BANG|TRLBAR|CMDWIN") (T "parse_cmd_common");
  mkCmd (T "quitall") 5 (T "BANG|TRLBAR") (T "parse_cmd_common");
  mkCmd (T "qall") 2 (T "BANG|TRLBAR|CMDWIN") (T "parse_cmd_common");
  mkCmd (T "read") 1 (T "BANG|RANGE|WHOLEFOLD|FILE1|ARGOPT|TRLBAR|ZEROR|CMDWIN|MODIFY") (T "parse_cmd_common");
  mkCmd (T "recover") 3 (T "BANG|FILE1|TRLBAR") (T "parse_cmd_common");
  mkCmd (T "redo") 3 (T "TRLBAR|CMDWIN") (T "parse_cmd_common");
  mkCmd (T "redir") 4 (T "BANG|FILES|TRLBAR|CMDWIN") (T "parse_cmd_common");
  mkCmd (T "redraw") 4 (T "BANG|TRLBAR|CMDWIN") (T "parse_cmd_common");
  mkCmd (T "redrawstatus") 7 (T "BANG|TRLBAR|CMDWIN") (T "parse_cmd_common");
  mkCmd (T "registers") 3 (T "EXTRA|NOTRLCOM|TRLBAR|CMDWIN") (T "parse_cmd_common");
  mkCmd (T "resize") 3 (T "RANGE|NOTADR|TRLBAR|WORD1") (T "parse_cmd_common");
  mkCmd (T "retab") 3 (T "TRLBAR|RANGE|WHOLEFOLD|DFLALL|BANG|WORD1|CMDWIN|MODIFY") (T "parse_cmd_common");
  mkCmd (T "return") 4 (T "EXTRA|NOTRLCOM|SBOXOK|CMDWIN") (T "parse_cmd_return");
  mkCmd (T "rewind") 3 (T "EXTRA|BANG|EDITCMD|ARGOPT|TRLBAR") (T "parse_cmd_common");
  mkCmd (T "right") 2 (T "TRLBAR|RANGE|WHOLEFOLD|EXTRA|CMDWIN|MODIFY") (T "parse_cmd_common");
  mkCmd (T "rightbelow") 6 (T "NEEDARG|EXTRA|NOTRLCOM") (T "parse_cmd_common");
  mkCmd (T "ruby") 3 (T "RANGE|EXTRA|NEEDARG|CMDWIN") (T "parse_cmd_ruby");
  mkCmd (T "rubydo") 5 (T "RANGE|DFLALL|EXTRA|NEEDARG|CMDWIN") (T "parse_cmd_common");
  mkCmd (T "rubyfile") 5 (T "RANGE|FILE1|NEEDARG|CMDWIN") (T "parse_cmd_common");
  mkCmd (T "rundo") 4 (T "NEEDARG|FILE1") (T "parse_cmd_common");
  mkCmd (T "runtime") 2 (T "BANG|NEEDARG|FILES|TRLBAR|SBOXOK|CMDWIN") (T "parse_cmd_common");
  mkCmd (T "rviminfo") 2 (T "BANG|FILE1|TRLBAR|CMDWIN") (T "parse_cmd_common");
  mkCmd (T "substitute") 1 (T "RANGE|WHOLEFOLD|EXTRA|CMDWIN") (T "parse_cmd_common");
  mkCmd (T "sNext") 2 (T "EXTRA|RANGE|NOTADR|COUNT|BANG|EDITCMD|ARGOPT|TRLBAR") (T "parse_cmd_common");
  mkCmd (T "sandbox") 3 (T "NEEDARG|EXTRA|NOTRLCOM") (T "parse_cmd_common");
  mkCmd (T "sargument") 2 (T "BANG|RANGE|NOTADR|COUNT|EXTRA|EDITCMD|ARGOPT|TRLBAR") (T "parse_cmd_common");
  mkCmd (T "sall") 3 (T "BANG|RANGE|NOTADR|COUNT|TRLBAR") (T "parse_cmd_common");
  mkCmd (T "saveas") 3 (T "BANG|DFLALL|FILE1|ARGOPT|CMDWIN|TRLBAR") (T "parse_cmd_common");
  mkCmd (T "sbuffer") 2 (T "BANG|RANGE|NOTADR|BUFNAME|BUFUNL|COUNT|EXTRA|TRLBAR") (T "parse_cmd_common");
  mkCmd (T "sbNext") 3 (T "RANGE|NOTADR|COUNT|TRLBAR") (T "parse_cmd_common");
  mkCmd (T "sball") 3 (T "RANGE|NOTADR|COUNT|TRLBAR") (T "parse_cmd_common");
  mkCmd (T "sbfirst") 3 (T "TRLBAR") (T "parse_cmd_common");
  mkCmd (T "sblast") 3 (T "TRLBAR") (T "parse_cmd_common");
  mkCmd (T "sbmodified") 3 (T "RANGE|NOTADR|COUNT|TRLBAR") (T "parse_cmd_common");
  mkCmd (T "sbnext") 3 (T "RANGE|NOTADR|COUNT|TRLBAR") (T "parse_cmd_common");
  mkCmd (T "sbprevious") 3 (T "RANGE|NOTADR|COUNT|TRLBAR") (T "parse_cmd_common");
  mkCmd (T "sbrewind") 3 (T "TRLBAR") (T "parse_cmd_common");
  mkCmd (T "scriptnames") 3 (T "TRLBAR|CMDWIN") (T "parse_cmd_common");
  mkCmd (T "scriptencoding") 7 (T "WORD1|TRLBAR|CMDWIN") (T "parse_cmd_common");
  mkCmd (T "scscope") 3 (T "EXTRA|NOTRLCOM") (T "parse_cmd_common");
  mkCmd (T "set") 2 (T "TRLBAR|EXTRA|CMDWIN|SBOXOK") (T "parse_cmd_common");
  mkCmd (T "setfiletype") 4 (T "TRLBAR|EXTRA|NEEDARG|CMDWIN") (T "parse_cmd_common");
  mkCmd (T "setglobal") 4 (T "TRLBAR|EXTRA|CMDWIN|SBOXOK") (T "parse_cmd_common");
  mkCmd (T "setlocal") 4 (T "TRLBAR|EXTRA|CMDWIN|SBOXOK") (T "parse_cmd_common");
  mkCmd (T "sfind") 2 (T "BANG|FILE1|RANGE|NOTADR|EDITCMD|ARGOPT|TRLBAR") (T "parse_cmd_common");
  mkCmd (T "sfirst") 4 (T "EXTRA|BANG|EDITCMD|ARGOPT|TRLBAR") (T "parse_cmd_common");
  mkCmd (T "shell") 2 (T "TRLBAR|CMDWIN") (T "parse_cmd_common");
  mkCmd (T "simalt") 3 (T "NEEDARG|WORD1|TRLBAR|CMDWIN") (T "parse_cmd_common");
  mkCmd (T "sign") 3 (T "NEEDARG|RANGE|NOTADR|EXTRA|CMDWIN") (T "parse_cmd_common");
  mkCmd (T "silent") 3 (T "NEEDARG|EXTRA|BANG|NOTRLCOM|SBOXOK|CMDWIN") (T "parse_cmd_common");
  mkCmd (T "sleep") 2 (T "RANGE|NOTADR|COUNT|EXTRA|TRLBAR|CMDWIN") (T "parse_cmd_common");
  mkCmd (T "slast") 3 (T "EXTRA|BANG|EDITCMD|ARGOPT|TRLBAR") (T "parse_cmd_common");
  mkCmd (T "smagic") 2 (T "RANGE|WHOLEFOLD|EXTRA|CMDWIN") (T "parse_cmd_common");
  mkCmd (T "smap") 4 (T "EXTRA|TRLBAR|NOTRLCOM|USECTRLV|CMDWIN") (T "parse_cmd_common");
  mkCmd (T "smapclear") 5 (T "EXTRA|TRLBAR|CMDWIN") (T "parse_cmd_common");
  mkCmd (T "smenu") 3 (T "RANGE|NOTADR|ZEROR|EXTRA|TRLBAR|NOTRLCOM|USECTRLV|CMDWIN") (T "parse_cmd_common");
  mkCmd (T "snext") 2 (T "RANGE|NOTADR|BANG|FILES|EDITCMD|ARGOPT|TRLBAR") (T "parse_cmd_common");
  mkCmd (T "sniff") 3 (T "EXTRA|TRLBAR") (T "parse_cmd_common");
  mkCmd (T "snomagic") 3 (T "RANGE|WHOLEFOLD|EXTRA|CMDWIN") (T "parse_cmd_common");
  mkCmd (T "snoremap") 4 (T "EXTRA|TRLBAR|NOTRLCOM|USECTRLV|CMDWIN") (T "parse_cmd_common");
  mkCmd (T "snoremenu") 7 (T "RANGE|NOTADR|ZEROR|EXTRA|TRLBAR|NOTRLCOM|USECTRLV|CMDWIN") (T "parse_cmd_common");
  mkCmd (T "sort") 3 (T "RANGE|DFLALL|WHOLEFOLD|BANG|EXTRA|NOTRLCOM|MODIFY") (T "parse_cmd_common");
  mkCmd (T "source") 2 (T "BANG|FILE1|TRLBAR|SBOXOK|CMDWIN") (T "parse_cmd_common");
  mkCmd (T "spelldump") 6 (T "BANG|TRLBAR") (T "parse_cmd_common");
  mkCmd (T "spellgood") 3 (T "BANG|RANGE|NOTADR|NEEDARG|EXTRA|TRLBAR") (T "parse_cmd_common");
  mkCmd (T "spellinfo") 6 (T "TRLBAR") (T "parse_cmd_common");
  mkCmd (T "spellrepall") 6 (T "TRLBAR") (T "parse_cmd_common");
  mkCmd (T "spellundo") 6 (T "BANG|RANGE|NOTADR|NEEDARG|EXTRA|TRLBAR") (T "parse_cmd_common");
  mkCmd (T "spellwrong") 6 (T "BANG|RANGE|NOTADR|NEEDARG|EXTRA|TRLBAR") (T "parse_cmd_common");
  mkCmd (T "split") 2 (T "BANG|FILE1|RANGE|NOTADR|EDITCMD|ARGOPT|TRLBAR") (T "parse_cmd_common");
  mkCmd (T "sprevious") 3 (T "EXTRA|RANGE|NOTADR|COUNT|BANG|EDITCMD|ARGOPT|TRLBAR") (T "parse_cmd_common");
  mkCmd (T "srewind") 3 (T "EXTRA|BANG|EDITCMD|ARGOPT|TRLBAR") (T "parse_cmd_common");
  mkCmd (T "stop") 2 (T "TRLBAR|BANG|CMDWIN") (T "parse_cmd_common");
  mkCmd (T "stag") 3 (T "RANGE|NOTADR|BANG|WORD1|TRLBAR|ZEROR") (T "parse_cmd_common");
  mkCmd (T "startinsert") 4 (T "BANG|TRLBAR|CMDWIN") (T "parse_cmd_common");
  mkCmd (T "startgreplace") 6 (T "BANG|TRLBAR|CMDWIN") (T "parse_cmd_common");
  mkCmd (T "startreplace") 6 (T "BANG|TRLBAR|CMDWIN") (T "parse_cmd_common");
  mkCmd (T "stopinsert") 5 (T "BANG|TRLBAR|CMDWIN") (T "parse_cmd_common");
  mkCmd (T "stjump") 3 (T "BANG|TRLBAR|WORD1") (T "parse_cmd_common");
  mkCmd (T "stselect") 3 (T "BANG|TRLBAR|WORD1") (T "parse_cmd_common");
  mkCmd (T "sunhide") 3 (T "RANGE|NOTADR|COUNT|TRLBAR") (T "parse_cmd_common");
  mkCmd (T "sunmap") 4 (T "EXTRA|TRLBAR|NOTRLCOM|USECTRLV|CMDWIN") (T "parse_cmd_common");
  mkCmd (T "sunmenu") 5 (T "EXTRA|TRLBAR|NOTRLCOM|USECTRLV|CMDWIN") (T "parse_cmd_common");
  mkCmd (T "suspend") 3 (T "TRLBAR|BANG|CMDWIN") (T "parse_cmd_common");
  mkCmd (T "sview") 2 (T "BANG|FILE1|RANGE|NOTADR|EDITCMD|ARGOPT|TRLBAR") (T "parse_cmd_common");
  mkCmd (T "swapname") 2 (T "TRLBAR|CMDWIN") (T "parse_cmd_common");
  mkCmd (T "syntax") 2 (T "EXTRA|NOTRLCOM|CMDWIN") (T "parse_cmd_syntax");
  mkCmd (T "syntime") 5 (T "NEEDARG|WORD1|TRLBAR|CMDWIN") (T "parse_cmd_common");
  mkCmd (T "syncbind") 4 (T "TRLBAR") (T "parse_cmd_common");
  mkCmd (T "t") 1 (T "RANGE|WHOLEFOLD|EXTRA|TRLBAR|CMDWIN|MODIFY") (T "parse_cmd_common");
  mkCmd (T "tNext") 2 (T "RANGE|NOTADR|BANG|TRLBAR|ZEROR") (T "parse_cmd_common");
  mkCmd (T "tabNext") 4 (T "RANGE|NOTADR|COUNT|TRLBAR") (T "parse_cmd_common");
  mkCmd (T "tabclose") 4 (T "RANGE|NOTADR|COUNT|BANG|TRLBAR|CMDWIN") (T "parse_cmd_common");
  mkCmd (T "tabdo") 4 (T "NEEDARG|EXTRA|NOTRLCOM") (T "parse_cmd_common");
  mkCmd (T "tabedit") 4 (T "BANG|FILE1|RANGE|NOTADR|ZEROR|EDITCMD|ARGOPT|TRLBAR") (T "parse_cmd_common");
  mkCmd (T "tabfind") 4 (T "BANG|FILE1|RANGE|NOTADR|ZEROR|EDITCMD|ARGOPT|NEEDARG|TRLBAR") (T "parse_cmd_common");
  mkCmd (T "tabfirst") 6 (T "TRLBAR") (T "parse_cmd_common");
  mkCmd (T "tablast") 4 (T "TRLBAR") (T "parse_cmd_common");
  mkCmd (T "tabmove") 4 (T "RANGE|NOTADR|ZEROR|EXTRA|NOSPC|TRLBAR") (T "parse_cmd_common");
  mkCmd (T "tabnew") 6 (T "BANG|FILE1|RANGE|NOTADR|ZEROR|EDITCMD|ARGOPT|TRLBAR") (T "parse_cmd_common");
  mkCmd (T "tabnext") 4 (T "RANGE|NOTADR|COUNT|TRLBAR") (T "parse_cmd_common");
  mkCmd (T "tabonly") 4 (T "BANG|TRLBAR|CMDWIN") (T "parse_cmd_common");
  mkCmd (T "tabprevious") 4 (T "RANGE|NOTADR|COUNT|TRLBAR") (T "parse_cmd_common");
  mkCmd (T "tabrewind") 4 (T "TRLBAR") (T "parse_cmd_common");
  mkCmd (T "tabs") 4 (T "TRLBAR|CMDWIN") (T "parse_cmd_common");
  mkCmd (T "tab") 3 (T "NEEDARG|EXTRA|NOTRLCOM") (T "parse_cmd_common");
  mkCmd (T "tag") 2 (T "RANGE|NOTADR|BANG|WORD1|TRLBAR|ZEROR") (T "parse_cmd_common");
  mkCmd (T "tags") 4 (T "TRLBAR|CMDWIN") (T "parse_cmd_common");
  mkCmd (T "tcl") 2 (T "RANGE|EXTRA|NEEDARG|CMDWIN") (T "parse_cmd_tcl");
  mkCmd (T "tcldo") 4 (T "RANGE|DFLALL|EXTRA|NEEDARG|CMDWIN") (T "parse_cmd_common");
  mkCmd (T "tclfile") 4 (T "RANGE|FILE1|NEEDARG|CMDWIN") (T "parse_cmd_common");
  mkCmd (T "tearoff") 2 (T "NEEDARG|EXTRA|TRLBAR|NOTRLCOM|CMDWIN") (T "parse_cmd_common");
  mkCmd (T "tfirst") 2 (T "RANGE|NOTADR|BANG|TRLBAR|ZEROR") (T "parse_cmd_common");
  mkCmd (T "throw") 2 (T "EXTRA|NEEDARG|SBOXOK|CMDWIN") (T "parse_cmd_throw");
  mkCmd (T "tjump") 2 (T "BANG|TRLBAR|WORD1") (T "parse_cmd_common");
  mkCmd (T "tlast") 2 (T "BANG|TRLBAR") (T "parse_cmd_common");
  mkCmd (T "tmenu") 2 (T "RANGE|NOTADR|ZEROR|EXTRA|TRLBAR|NOTRLCOM|USECTRLV|CMDWIN") (T "parse_cmd_common");
  mkCmd (T "tnext") 2 (T "RANGE|NOTADR|BANG|TRLBAR|ZEROR") (T "parse_cmd_common");
  mkCmd (T "topleft") 2 (T "NEEDARG|EXTRA|NOTRLCOM") (T "parse_cmd_common");
  mkCmd (T "tprevious") 2 (T "RANGE|NOTADR|BANG|TRLBAR|ZEROR") (T "parse_cmd_common");
  mkCmd (T "trewind") 2 (T "RANGE|NOTADR|BANG|TRLBAR|ZEROR") (T "parse_cmd_common");
  mkCmd (T "try") 3 (T "TRLBAR|SBOXOK|CMDWIN") (T "parse_cmd_try");
  mkCmd (T "tselect") 2 (T "BANG|TRLBAR|WORD1") (T "parse_cmd_common");
  mkCmd (T "tunmenu") 2 (T "EXTRA|TRLBAR|NOTRLCOM|USECTRLV|CMDWIN") (T "parse_cmd_common");
  mkCmd (T "undo") 1 (T "RANGE|NOTADR|COUNT|ZEROR|TRLBAR|CMDWIN") (T "parse_cmd_common");
  mkCmd (T "undojoin") 5 (T "TRLBAR|CMDWIN") (T "parse_cmd_common");
  mkCmd (T "undolist") 5 (T "TRLBAR|CMDWIN") (T "parse_cmd_common");
  mkCmd (T "unabbreviate") 3 (T "EXTRA|TRLBAR|NOTRLCOM|USECTRLV|CMDWIN") (T "parse_cmd_common");
  mkCmd (T "unhide") 3 (T "RANGE|NOTADR|COUNT|TRLBAR") (T "parse_cmd_common");
  mkCmd (T "unlet") 3 (T "BANG|EXTRA|NEEDARG|SBOXOK|CMDWIN") (T "parse_cmd_unlet");
  mkCmd (T "unlockvar") 4 (T "BANG|EXTRA|NEEDARG|SBOXOK|CMDWIN") (T "parse_cmd_unlockvar");
  mkCmd (T "unmap") 3 (T "BANG|EXTRA|TRLBAR|NOTRLCOM|USECTRLV|CMDWIN") (T "parse_cmd_common");
  mkCmd (T "unmenu") 4 (T "BANG|EXTRA|TRLBAR|NOTRLCOM|USECTRLV|CMDWIN") (T "parse_cmd_common");
  mkCmd (T "unsilent") 3 (T "NEEDARG|EXTRA|NOTRLCOM|SBOXOK|CMDWIN") (T "parse_cmd_common");
  mkCmd (T "update") 2 (T "RANGE|WHOLEFOLD|BANG|FILE1|ARGOPT|DFLALL|TRLBAR") (T "parse_cmd_common");
  mkCmd (T "vglobal") 1 (T "RANGE|WHOLEFOLD|EXTRA|DFLALL|CMDWIN") (T "parse_cmd_common");
  mkCmd (T "version") 2 (T "EXTRA|TRLBAR|CMDWIN") (T "parse_cmd_common");
  mkCmd (T "verbose") 4 (T "NEEDARG|RANGE|NOTADR|EXTRA|NOTRLCOM|SBOXOK|CMDWIN") (T "parse_cmd_common");
  mkCmd (T "vertical") 4 (T "NEEDARG|EXTRA|NOTRLCOM") (T "parse_cmd_common");
  mkCmd (T "vimgrep") 3 (T "RANGE|NOTADR|BANG|NEEDARG|EXTRA|NOTRLCOM|TRLBAR|XFILE") (T "parse_cmd_common");
  mkCmd (T "vimgrepadd") 8 (T "RANGE|NOTADR|BANG|NEEDARG|EXTRA|NOTRLCOM|TRLBAR|XFILE") (T "parse_cmd_common");
  mkCmd (T "visual") 2 (T "BANG|FILE1|EDITCMD|ARGOPT|TRLBAR") (T "parse_cmd_common");
  mkCmd (T "viusage") 3 (T "TRLBAR") (T "parse_cmd_common");
  mkCmd (T "view") 3 (T "BANG|FILE1|EDITCMD|ARGOPT|TRLBAR") (T "parse_cmd_common");
  mkCmd (T "vmap") 2 (T "EXTRA|TRLBAR|NOTRLCOM|USECTRLV|CMDWIN") (T "parse_cmd_common");
  mkCmd (T "vmapclear") 5 (T "EXTRA|TRLBAR|CMDWIN") (T "parse_cmd_common");
  mkCmd (T "vmenu") 3 (T "RANGE|NOTADR|ZEROR|EXTRA|TRLBAR|NOTRLCOM|USECTRLV|CMDWIN") (T "parse_cmd_common");
  mkCmd (T "vnew") 3 (T "BANG|FILE1|RANGE|NOTADR|EDITCMD|ARGOPT|TRLBAR") (T "parse_cmd_common");
  mkCmd (T "vnoremap") 2 (T "EXTRA|TRLBAR|NOTRLCOM|USECTRLV|CMDWIN") (T "parse_cmd_common");
  mkCmd (T "vnoremenu") 7 (T "RANGE|NOTADR|ZEROR|EXTRA|TRLBAR|NOTRLCOM|USECTRLV|CMDWIN") (T "parse_cmd_common");
  mkCmd (T "vsplit") 2 (T "BANG|FILE1|RANGE|NOTADR|EDITCMD|ARGOPT|TRLBAR") (T "parse_cmd_common");
  mkCmd (T "vunmap") 2 (T "EXTRA|TRLBAR|NOTRLCOM|USECTRLV|CMDWIN") (T "parse_cmd_common");
  mkCmd (T "vunmenu") 5 (T "EXTRA|TRLBAR|NOTRLCOM|USECTRLV|CMDWIN") (T "parse_cmd_common");
  mkCmd (T "windo") 5 (T "BANG|NEEDARG|EXTRA|NOTRLCOM") (T "parse_cmd_common");
  mkCmd (T "write") 1 (T "RANGE|WHOLEFOLD|BANG|FILE1|ARGOPT|DFLALL|TRLBAR|CMDWIN") (T "parse_cmd_common");
  mkCmd (T "wNext") 2 (T "RANGE|WHOLEFOLD|NOTADR|BANG|FILE1|ARGOPT|TRLBAR") (T "parse_cmd_common");
  mkCmd (T "wall") 2 (T "BANG|TRLBAR|CMDWIN") (T "parse_cmd_common");
  mkCmd (T "while") 2 (T "EXTRA|NOTRLCOM|SBOXOK|CMDWIN") (T "parse_cmd_while");
  mkCmd (T "winsize") 2 (T "EXTRA|NEEDARG|TRLBAR") (T "parse_cmd_common");
  mkCmd (T "wincmd") 4 (T "NEEDARG|WORD1|RANGE|NOTADR") (T "parse_wincmd");
  mkCmd (T "winpos") 4 (T "EXTRA|TRLBAR|CMDWIN") (T "parse_cmd_common");
  mkCmd (T "wnext") 2 (T "RANGE|NOTADR|BANG|FILE1|ARGOPT|TRLBAR") (T "parse_cmd_common");
  mkCmd (T "wprevious") 2 (T "RANGE|NOTADR|BANG|FILE1|ARGOPT|TRLBAR") (T "parse_cmd_common");
  mkCmd (T "wq") 2 (T "RANGE|WHOLEFOLD|BANG|FILE1|ARGOPT|DFLALL|TRLBAR") (T "parse_cmd_common");
  mkCmd (T "wqall") 3 (T "BANG|FILE1|ARGOPT|DFLALL|TRLBAR") (T "parse_cmd_common");
  mkCmd (T "wsverb") 2 (T "EXTRA|NOTADR|NEEDARG") (T "parse_cmd_common");
  mkCmd (T "wundo") 2 (T "BANG|NEEDARG|FILE1") (T "parse_cmd_common");
  mkCmd (T "wviminfo") 2 (T "BANG|FILE1|TRLBAR|CMDWIN") (T "parse_cmd_common");
  mkCmd (T "xit") 1 (T "RANGE|WHOLEFOLD|BANG|FILE1|ARGOPT|DFLALL|TRLBAR|CMDWIN") (T "parse_cmd_common");
  mkCmd (T "xall") 2 (T "BANG|TRLBAR") (T "parse_cmd_common");
  mkCmd (T "xmapclear") 5 (T "EXTRA|TRLBAR|CMDWIN") (T "parse_cmd_common");
  mkCmd (T "xmap") 2 (T "EXTRA|TRLBAR|NOTRLCOM|USECTRLV|CMDWIN") (T "parse_cmd_common");
  mkCmd (T "xmenu") 3 (T "RANGE|NOTADR|ZEROR|EXTRA|TRLBAR|NOTRLCOM|USECTRLV|CMDWIN") (T "parse_cmd_common");
  mkCmd (T "xnoremap") 2 (T "EXTRA|TRLBAR|NOTRLCOM|USECTRLV|CMDWIN") (T "parse_cmd_common");
  mkCmd (T "xnoremenu") 7 (T "RANGE|NOTADR|ZEROR|EXTRA|TRLBAR|NOTRLCOM|USECTRLV|CMDWIN") (T "parse_cmd_common");
  mkCmd (T "xunmap") 2 (T "EXTRA|TRLBAR|NOTRLCOM|USECTRLV|CMDWIN") (T "parse_cmd_common");
  mkCmd (T "xunmenu") 5 (T "EXTRA|TRLBAR|NOTRLCOM|USECTRLV|CMDWIN") (T "parse_cmd_common");
  mkCmd (T "yank") 1 (T "RANGE|WHOLEFOLD|REGSTR|COUNT|TRLBAR|CMDWIN") (T "parse_cmd_common");
  mkCmd (T "z") 1 (T "RANGE|WHOLEFOLD|EXTRA|EXFLAGS|TRLBAR|CMDWIN") (T "parse_cmd_common");
  mkCmd (T "!") 1 (T "RANGE|WHOLEFOLD|BANG|FILES|CMDWIN") (T "parse_cmd_common");
  mkCmd (T "#") 1 (T "RANGE|WHOLEFOLD|COUNT|EXFLAGS|TRLBAR|CMDWIN") (T "parse_cmd_common");
  mkCmd (T "&") 1 (T "RANGE|WHOLEFOLD|EXTRA|CMDWIN|MODIFY") (T "parse_cmd_common");
  mkCmd (T "*") 1 (T "RANGE|WHOLEFOLD|EXTRA|TRLBAR|CMDWIN") (T "parse_cmd_common");
  mkCmd (T "<") 1 (T "RANGE|WHOLEFOLD|COUNT|EXFLAGS|TRLBAR|CMDWIN|MODIFY") (T "parse_cmd_common");
  mkCmd (T "=") 1 (T "RANGE|TRLBAR|DFLALL|EXFLAGS|CMDWIN") (T "parse_cmd_common");
  mkCmd (T ">") 1 (T "RANGE|WHOLEFOLD|COUNT|EXFLAGS|TRLBAR|CMDWIN|MODIFY") (T "parse_cmd_common");
  mkCmd (T "@") 1 (T "RANGE|WHOLEFOLD|EXTRA|TRLBAR|CMDWIN") (T "parse_cmd_common");
  mkCmd (T "Next") 1 (T "EXTRA|RANGE|NOTADR|COUNT|BANG|EDITCMD|ARGOPT|TRLBAR") (T "parse_cmd_common");
  mkCmd (T "Print") 1 (T "RANGE|WHOLEFOLD|COUNT|EXFLAGS|TRLBAR|CMDWIN") (T "parse_cmd_common");
  mkCmd (T "X") 1 (T "TRLBAR") (T "parse_cmd_common");
  mkCmd (T "~") 1 (T "RANGE|WHOLEFOLD|EXTRA|CMDWIN|MODIFY") (T "parse_cmd_common");
  mkCmd (T "cbottom") 3 (T "TRLBAR") (T "parse_cmd_common");
  mkCmd (T "cdo") 3 (T "BANG|NEEDARG|EXTRA|NOTRLCOM|RANGE|NOTADR|DFLALL") (T "parse_cmd_common");
  mkCmd (T "cfdo") 3 (T "BANG|NEEDARG|EXTRA|NOTRLCOM|RANGE|NOTADR|DFLALL") (T "parse_cmd_common");
  mkCmd (T "chistory") 3 (T "TRLBAR") (T "parse_cmd_common");
  mkCmd (T "clearjumps") 3 (T "TRLBAR|CMDWIN") (T "parse_cmd_common");
  mkCmd (T "filter") 4 (T "BANG|NEEDARG|EXTRA|NOTRLCOM") (T "parse_cmd_common");
  mkCmd (T "helpclose") 5 (T "RANGE|NOTADR|COUNT|TRLBAR") (T "parse_cmd_common");
  mkCmd (T "lbottom") 3 (T "TRLBAR") (T "parse_cmd_common");
  mkCmd (T "ldo") 2 (T "BANG|NEEDARG|EXTRA|NOTRLCOM|RANGE|NOTADR|DFLALL") (T "parse_cmd_common");
  mkCmd (T "lfdo") 3 (T "BANG|NEEDARG|EXTRA|NOTRLCOM|RANGE|NOTADR|DFLALL") (T "parse_cmd_common");
  mkCmd (T "lhistory") 3 (T "TRLBAR") (T "parse_cmd_common");
  mkCmd (T "llist") 3 (T "BANG|EXTRA|TRLBAR|CMDWIN") (T "parse_cmd_common");
  mkCmd (T "noswapfile") 3 (T "NEEDARG|EXTRA|NOTRLCOM") (T "parse_cmd_common");
  mkCmd (T "packadd") 2 (T "BANG|FILE1|NEEDARG|TRLBAR|SBOXOK|CMDWIN") (T "parse_cmd_common");
  mkCmd (T "packloadall") 5 (T "BANG|TRLBAR|SBOXOK|CMDWIN") (T "parse_cmd_common");
  mkCmd (T "smile") 3 (T "TRLBAR|CMDWIN|SBOXOK") (T "parse_cmd_common");
  mkCmd (T "pyx") 3 (T "RANGE|EXTRA|NEEDARG|CMDWIN") (T "parse_cmd_common");
  mkCmd (T "pyxdo") 4 (T "RANGE|DFLALL|EXTRA|NEEDARG|CMDWIN") (T "parse_cmd_common");
  mkCmd (T "pythonx") 7 (T "RANGE|EXTRA|NEEDARG|CMDWIN") (T "parse_cmd_common");
  mkCmd (T "pyxfile") 4 (T "RANGE|FILE1|NEEDARG|CMDWIN") (T "parse_cmd_common");
  mkCmd (T "terminal") 3 (T "RANGE|BANG|FILES|CMDWIN") (T "parse_cmd_common");
  mkCmd (T "tmap") 3 (T "EXTRA|TRLBAR|NOTRLCOM|USECTRLV|CMDWIN") (T "parse_cmd_common");
  mkCmd (T "tmapclear") 5 (T "EXTRA|TRLBAR|CMDWIN") (T "parse_cmd_common");
  mkCmd (T "tnoremap") 3 (T "EXTRA|TRLBAR|NOTRLCOM|USECTRLV|CMDWIN") (T "parse_cmd_common");
  mkCmd (T "tunmap") 5 (T "EXTRA|TRLBAR|NOTRLCOM|USECTRLV|CMDWIN") (T "parse_cmd_common");
  mkCmd (T "cabove") 4 (T "RANGE|COUNT|TRLBAR") (T "parse_cmd_common");
  mkCmd (T "cafter") 3 (T "RANGE|COUNT|TRLBAR") (T "parse_cmd_common");
  mkCmd (T "cbefore") 3 (T "RANGE|COUNT|TRLBAR") (T "parse_cmd_common");
  mkCmd (T "cbelow") 4 (T "RANGE|COUNT|TRLBAR") (T "parse_cmd_common");
  mkCmd (T "const") 4 (T "EXTRA|NOTRLCOM|SBOXOK|CMDWIN") (T "parse_cmd_common");
  mkCmd (T "labove") 3 (T "RANGE|COUNT|TRLBAR") (T "parse_cmd_common");
  mkCmd (T "lafter") 3 (T "RANGE|COUNT|TRLBAR") (T "parse_cmd_common");
  mkCmd (T "lbefore") 3 (T "RANGE|COUNT|TRLBAR") (T "parse_cmd_common");
  mkCmd (T "lbelow") 4 (T "RANGE|COUNT|TRLBAR") (T "parse_cmd_common");
  mkCmd (T "redrawtabline") 7 (T "TRLBAR|CMDWIN") (T "parse_cmd_common");
  mkCmd (T "scriptversion") 7 (T "WORD1|TRLBAR|CMDWIN") (T "parse_cmd_common");
  mkCmd (T "tcd") 2 (T "BANG|FILE1|TRLBAR|CMDWIN") (T "parse_cmd_common");
  mkCmd (T "tchdir") 3 (T "BANG|FILE1|TRLBAR|CMDWIN") (T "parse_cmd_common");
  mkCmd (T "tlmenu") 3 (T "RANGE|ZEROR|EXTRA|TRLBAR|NOTRLCOM|CTRLV|CMDWIN") (T "parse_cmd_common");
  mkCmd (T "tlnoremenu") 3 (T "RANGE|ZEROR|EXTRA|TRLBAR|NOTRLCOM|CTRLV|CMDWIN") (T "parse_cmd_common");
  mkCmd (T "tlunmenu") 3 (T "RANGE|ZEROR|EXTRA|TRLBAR|NOTRLCOM|CTRLV|CMDWIN") (T "parse_cmd_common");
  mkCmd (T "xrestore") 2 (T "EXTRA|TRLBAR|CMDWIN") (T "parse_cmd_common");
  mkCmd (T "def") 3 (T "EXTRA|BANG|SBOXOK|CMDWIN") (T "parse_cmd_common");
  mkCmd (T "disassemble") 4 (T "EXTRA|NEEDARG|TRLBAR|CMDWIN") (T "parse_cmd_common");
  mkCmd (T "enddef") 4 (T "TRLBAR|CMDWIN") (T "parse_cmd_common");
  mkCmd (T "export") 3 (T "EXTRA|NOTRLCOM") (T "parse_cmd_common");
  mkCmd (T "import") 3 (T "EXTRA|NOTRLCOM") (T "parse_cmd_common");
  mkCmd (T "spellrare") 7 (T "BANG|RANGE|NEEDARG|EXTRA|TRLBAR") (T "parse_cmd_common");
  mkCmd (T "vim9script") 4 (T "") (T "parse_cmd_common")].
