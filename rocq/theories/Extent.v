(** Specification: how far the text of an Ex command without a tree of its own goes.
    Relations between texts, written after ":help :bar", ":help :comment" and the help of
    the commands with rules of their own. Nothing here refers to the reading functions. *)
From Verif Require Import Base CharClass Vnode CmdTable.
From Verif Require Import Head.

(** * Patterns *)

(** [delimited d s rest]: a pattern [s] with its closing delimiter, or one without it that
    takes the rest of the line; [rest] follows. *)
Inductive delimited (d : N) (rest : text) : text -> Prop :=
| dm_closed s : pattern_text d 0 s 0 -> delimited d rest (s ++ [d])
| dm_open s j : pattern_text d 0 s j -> rest = [] -> delimited d rest s.

(** * Commands that a bar or a comment can follow *)

Section Extent.
Context (expression : text -> Prop).

(** The pattern of :vimgrep and its relatives: a word up to a blank, or a pattern between
    delimiters with the flags "g" and "j". [rest] follows. *)
Inductive grep_pattern (rest : text) : text -> Prop :=
| gp_none : rest = [] -> grep_pattern rest []
| gp_word r s : iswordc r = true -> longest (fun r => negb (iswhite r)) (r :: s) ((r :: s) ++ rest) ->
    grep_pattern rest (r :: s)
| gp_delim d s f : iswordc d = false -> delimited d (f ++ rest) s ->
    longest (fun r => mem_N r (T "gj")) f (f ++ rest) -> grep_pattern rest (d :: s ++ f).
Definition grep_names : list text := [T "vimgrep"; T "vimgrepadd"; T "lvimgrep"; T "lvimgrepadd"].

(** Commands that take file names. *)
Definition file_names (x : cmd) : Prop :=
  flag (T "XFILE") x = true \/ flag (T "FILES") x = true \/ flag (T "FILE1") x = true.

(** After the argument [done], the text [rest] does not belong to the command: it is the
    end of the line, a bar, a line feed or a comment, not escaped by a backslash. A
    command with the flag NOTRLCOM takes no comment, and "@" followed by a quote is a
    register of :redir. *)
Definition ended (x : cmd) (done rest : text) : Prop :=
  rest = [] \/
  (~ (exists s, done = s ++ [92]) /\
   (begins (T "|") rest \/ begins [10] rest \/
    (begins (T """") rest /\ flag (T "NOTRLCOM") x = false /\
     ~ (c_name x = T "redir" /\ done = T "@")))).

(** A backquoted expression follows. *)
Definition backquoted (x : cmd) (s : text) : Prop := file_names x /\ begins (T "`=") s.

(** [argument x rest done s]: after [done], the argument goes on with [s] and ends before
    [rest]. Ctrl-V (22) quotes the next character; backquotes hold an expression. *)
Inductive argument (x : cmd) (rest : text) : text -> text -> Prop :=
| ar_end done : ended x done rest -> argument x rest done []
| ar_quoted done r s : argument x rest (done ++ [22; r]) s -> argument x rest done (22 :: r :: s)
| ar_quoted_end done : rest = [] -> argument x rest done [22]
| ar_expression done e s : file_names x -> expression e ->
    argument x rest (done ++ T "`=" ++ e ++ T "`") s ->
    argument x rest done (T "`=" ++ e ++ T "`" ++ s)
| ar_char done r s : r <> 22 -> ~ backquoted x (r :: s ++ rest) -> ~ ended x done (r :: s ++ rest) ->
    argument x rest (done ++ [r]) s -> argument x rest done (r :: s).

(** A command that a bar can follow, and one that takes the whole line. A filter takes the
    line. *)
Definition takes_bar (x : cmd) (filter : bool) : bool := flag (T "TRLBAR") x && negb filter.

(** [text_of x filter s w rest]: of the text [s ++ w ++ rest] after the head of the command
    [x], the node keeps [s]; [w] are blanks that are dropped; [rest] is read as the next
    command. *)
Inductive text_of (x : cmd) (filter : bool) : text -> text -> text -> Prop :=
| to_line s : takes_bar x filter = false -> text_of x filter s [] []
| to_bar p s w rest : takes_bar x filter = true ->
    (if existsb (text_eqb (c_name x)) grep_names then grep_pattern (s ++ w ++ rest) p else p = []) ->
    argument x rest [] (s ++ w) ->
    (if flag (T "NOTRLCOM") x then w = []
     else all_white w /\ ~ (exists u r, s = u ++ [r] /\ iswhite r = true)) ->
    text_of x filter (p ++ s) w rest.

End Extent.

(** * :wincmd and :syntax *)

(** :wincmd: one character, or "g" or Ctrl-G with a character that is not a blank. *)
Inductive window_key : text -> Prop :=
| wk_one r : r <> C "g" -> r <> 7 -> window_key [r]
| wk_two r k : r = C "g" \/ r = 7 -> iswhite k = false -> window_key [r; k].

(** :syntax: patterns after a slash or a quote, and after "=" a text up to a space; the
    character after the closing delimiter is taken with it. Outside of them a bar ends the
    command. *)
Definition syntax_delimiter (r : N) : option N :=
  if mem_N r (T "/'""") then Some r else if r =? C "=" then Some (C " ") else None.
Inductive syntax_text (rest : text) : text -> Prop :=
| sx_end : rest = [] \/ begins (T "|") rest -> syntax_text rest []
| sx_char r s : syntax_delimiter r = None -> r <> C "|" -> syntax_text rest s -> syntax_text rest (r :: s)
| sx_pattern r d p o s : syntax_delimiter r = Some d -> delimited d (o ++ s ++ rest) p ->
    (length o <= 1)%nat -> (o = [] -> s ++ rest = []) -> syntax_text rest s ->
    syntax_text rest (r :: p ++ o ++ s).
