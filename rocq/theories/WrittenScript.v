(** Specification: how a script can be written, as a relation between the statements of
    the syntax tree package and texts. It covers the statements with a tree of their own:
    assignments, function definitions, conditionals, loops, exceptions, echo and the
    like, and the Ex commands kept as text, with comments, blank lines and bars between
    them. It mentions neither the reading functions nor the parser. *)
From Verif Require Import Base CharClass Reader Vnode Token CmdTable Ast Grammar Script Join Head Extent CmdSpec Written Rest.

(** The text of a script: characters and line ends. *)
Definition chars (s : text) : list cell := map R s.
Definition lines_text (ls : list text) : list cell := concat (map (fun l => chars l ++ [EOL]) ls).

(** * The head of a command *)

(** The text of a line up to its arguments, with the head [h]: [tl] are the modifiers and
    the range, [nm] is the name, [bang] and [white] follow it, [opts] are the options
    before the arguments [rest]. The name of a user command contains no digit. *)
Record head_line (nv : bool) (x : cmd) (h : head_fields) (tl nm bang white opts rest : text) : Prop := {
  hl_text : head_text nv x h tl nm bang white opts rest;
  hl_name : resolves nv (nm ++ bang ++ white ++ opts ++ rest) nm x;
  hl_digits : starts_upper nm = true -> forallb isalpha nm = true;
  hl_first : head_not (fun r => iswhite r || (r =? C ":")) (tl ++ nm) }.
(** The positions that the node of a command has. *)
Definition placed_head (a : aexarg) : Prop :=
  ae_linepos a <> None /\ ae_cmdpos a <> None /\ ae_argpos a <> None.

(** [command nv P rest a s]: [s] is the name of a command of the kind [P], possibly
    abbreviated, a bang if the command allows one, and blanks. The text [rest] after it
    does not continue the name. [a] records the head. With modifiers or a range, the head
    must be one for every text [g ++ u] that can stand after [rest]. *)
Inductive command (nv : bool) (P rest : text) : aexarg -> text -> Prop :=
| cm_plain k x w p q r : first_match nv k x -> c_parser x = P -> gap w ->
    (w = [] -> head_not (fun r => isalpha r || (r =? C "!")) rest) ->
    command nv P rest (mkAEa false [] 0 false 0 0 0 [] [] [] (Some p) (Some q) (Some r) (Some x) [] []) (k ++ w)
| cm_bang k x w p q r : first_match nv k x -> c_parser x = P -> gap w -> flag (T "BANG") x = true ->
    command nv P rest (mkAEa true [] 0 false 0 0 0 [] [] [] (Some p) (Some q) (Some r) (Some x) [] []) (k ++ T "!" ++ w)
| cm_head x a tl nm bang w : c_parser x = P -> ae_cmd a = Some x -> placed_head a ->
    (forall g u, gap g -> (rest <> [] -> g = []) ->
       (rest = [] -> head_not (fun r => isalpha r || (r =? C "!")) (g ++ u) /\ head_not iswhite u) ->
       head_line nv x (ast_head a) tl nm bang (w ++ g) [] (rest ++ u)) ->
    command nv P rest a (tl ++ nm ++ bang ++ w).

(** * Arguments *)

(** The words that are comparison operators. *)
Definition operator_word (s : text) : Prop :=
  exists u s', In u [T "is"; T "isnot"] /\ s = u ++ s' /\ head_not iswordc s'.

(** After the expression [n], the text [s] starts another expression: it does not
    continue [n]. *)
Definition apart (n : node) (w s : text) : Prop :=
  follows n w s /\ head_not (fun r => mem_N r (T "+-(<")) s /\
  (w = [] -> head_not (fun r => r =? C "[") s) /\ ~ operator_word s.

(** Expressions one after the other. *)
Inductive written_exprs (e : bool) : list node -> text -> Prop :=
| wx_last n s : written e 1 n s -> written_exprs e [n] s
| wx_cons n s w ns sn : written false 1 n s -> gap w -> apart n w sn -> written_exprs e ns sn ->
    written_exprs e (n :: ns) (s ++ w ++ sn).

(** What can be assigned to: names, options, environment variables, registers, and
    their subscripts, slices and members. *)
Fixpoint is_target (n : node) : bool :=
  match n with
  | NIdent _ _ | NCurlyName _ _ | NBasicLit _ TOPTION _ | NBasicLit _ TENV _ | NBasicLit _ TREG _ => true
  | NSubscript _ (Some a) _ | NSlice (Some a) _ _ _ | NDot (Some a) _ _ => is_target a
  | _ => false
  end.
Definition written_target (n : node) (s : text) : Prop :=
  written false 8 n s /\ is_target n = true /\ ~ operator_word s.
Definition variable (n : node) : Prop :=
  match n with NIdent _ s => isvarname s = true | _ => True end.
Definition const_variable (n : node) : Prop :=
  match n with NIdent _ s => isvarname s = true | NCurlyName _ _ => True | _ => False end.
Definition funcname (n : node) : Prop :=
  match n with NIdent _ s => plain_name_ok s | NSlice _ _ _ _ => False | _ => True end.

(** "a, b; rest]" *)
Inductive written_targets : list node -> option node -> text -> Prop :=
| wt_last n s w1 w2 : written_target n s -> variable n -> gap w1 -> gap w2 ->
    written_targets [n] None (w1 ++ s ++ w2 ++ T "]")
| wt_cons n s w1 w2 ns r sn : written_target n s -> variable n -> gap w1 -> gap w2 -> written_targets ns r sn ->
    written_targets (n :: ns) r (w1 ++ s ++ w2 ++ T "," ++ sn)
| wt_rest n s w1 w2 m sm w3 w4 : written_target n s -> variable n -> written_target m sm -> variable m ->
    gap w1 -> gap w2 -> gap w3 -> gap w4 ->
    written_targets [n] (Some m) (w1 ++ s ++ w2 ++ T ";" ++ w3 ++ sm ++ w4 ++ T "]").

(** The left side of an assignment; blanks [w] and the text [next] follow. *)
Inductive written_lhs (ok : node -> Prop) (w next : text) : option node -> list node -> option node -> text -> Prop :=
| wl_one n s : written_target n s -> ok n -> follows n w next -> written_lhs ok w next (Some n) [] None s
| wl_list ns r s : written_targets ns r s -> written_lhs ok w next None ns r (T "[" ++ s).

(** Variables one after the other (:unlet, :lockvar). *)
Inductive written_vars : list node -> text -> Prop :=
| wv_last n s : written_target n s -> variable n -> written_vars [n] s
| wv_cons n s w ns sn : written_target n s -> variable n -> gap1 w -> head_not (fun r => r =? C "<") sn ->
    written_vars ns sn -> written_vars (n :: ns) (s ++ w ++ sn).

(** The depth of :lockvar. *)
Definition depth_text (z : Z) (s : text) : Prop :=
  (z = 0%Z /\ s = []) \/ (some_of isdigit s /\ decimal s <= 2147483647 /\ z = Z.of_N (decimal s)).

(** The parameters of a function, after the opening parenthesis. Default values belong
    to the last names; a comma follows its parameter directly. [must]: a default value is
    required; [used]: the names before. *)
Definition parameter (used : list text) (s : text) : Prop :=
  isargname s = true /\ ~ In s [T "is"; T "isnot"; T "firstline"; T "lastline"] /\ ~ In s used.
Inductive written_fparams : bool -> list text -> list node -> list node -> text -> Prop :=
| wf_close must used w : gap w -> written_fparams must used [] [] (w ++ T ")")
| wf_rest must used p w1 w2 : gap w1 -> gap w2 ->
    written_fparams must used [NIdent p (T "...")] [] (w1 ++ T "..." ++ w2 ++ T ")")
| wf_last used p s w1 w2 : parameter used s -> gap w1 -> gap w2 ->
    written_fparams false used [NIdent p s] [] (w1 ++ s ++ w2 ++ T ")")
| wf_last_value must used p s v sv w1 w2 w3 w4 : parameter used s -> written false 1 v sv ->
    gap w1 -> gap w2 -> gap w3 -> gap w4 ->
    written_fparams must used [NIdent p s] [v] (w1 ++ s ++ w2 ++ T "=" ++ w3 ++ sv ++ w4 ++ T ")")
| wf_cons used p s w1 ps ds sp : parameter used s -> gap w1 -> written_fparams false (s :: used) ps ds sp ->
    written_fparams false used (NIdent p s :: ps) ds (w1 ++ s ++ T "," ++ sp)
| wf_cons_value must used p s v sv w1 w2 w3 ps ds sp : parameter used s -> written false 1 v sv ->
    gap w1 -> gap w2 -> gap w3 -> written_fparams true (s :: used) ps ds sp ->
    written_fparams must used (NIdent p s :: ps) (v :: ds) (w1 ++ s ++ w2 ++ T "=" ++ w3 ++ sv ++ T "," ++ sp).

(** The attributes of a function; [a] holds those before. *)
Inductive written_attrs : funcattr -> funcattr -> text -> Prop :=
| wa_nil a : written_attrs a a []
| wa_word a k a1 a2 w s : set_attr k a = Some a1 -> gap w -> head_not isalpha s -> written_attrs a1 a2 s ->
    written_attrs a a2 (w ++ k ++ s).

(** The pattern of :catch: [pattern_text] between two delimiters. *)
Inductive written_pattern : bool -> text -> text -> Prop :=
| wp_none : written_pattern false [] []
| wp_closed d s : ~ In d (32 :: 9 :: T "|""") -> pattern_text d 0 s 0 ->
    written_pattern false s (d :: s ++ [d])
| wp_open d s j : ~ In d (32 :: 9 :: T "|""") -> pattern_text d 0 s j ->
    written_pattern true s (d :: s).

(** The words and the marker of a here-document. *)
Inductive written_words : list node -> text -> text -> Prop :=
| ww_marker m : some_of iswordc m -> islower (hd 0 m) = false -> written_words [] m m
| ww_word p k ks m w s : some_of iswordc k -> islower (hd 0 k) = true -> gap1 w -> written_words ks m s ->
    written_words (NBasicLit p TSTRING k :: ks) m (k ++ w ++ s).

(** The lines of a here-document, up to the marker. *)
Inductive written_doc (m : text) : list node -> list cell -> Prop :=
| wd_end : written_doc m [] (chars m)
| wd_line p l ls s : l <> m -> written_doc m ls s ->
    written_doc m (NBasicLit p TSTRING l :: ls) (chars l ++ EOL :: s).

(** * Commands on one line *)

(** [line_cmd w e cm n s]: [s] is a text for the statement [n] at the place [w]. If [e] is
    true, the line must end after it; if [cm] is false, no comment can follow. *)
Inductive line_cmd (nv : bool) (w : place) : bool -> bool -> node -> text -> Prop :=
| lc_echo e k a h x ns s p : command nv (echo_parser k) s a h -> ae_cmd a = Some x -> written_exprs e ns s ->
    line_cmd nv w e false (NEchoCmd p (c_name x) a ns) (h ++ s)
| lc_echo_nothing k a h x p : command nv (echo_parser k) [] a h -> ae_cmd a = Some x ->
    line_cmd nv w false false (NEchoCmd p (c_name x) a []) h
| lc_execute e a h ns s p : command nv (T "parse_cmd_execute") s a h -> written_exprs e ns s ->
    line_cmd nv w e false (NExecute p a ns) (h ++ s)
| lc_execute_nothing a h p : command nv (T "parse_cmd_execute") [] a h ->
    line_cmd nv w false false (NExecute p a []) h
| lc_call e a h f q xs s p : command nv (T "parse_cmd_call") s a h -> written e 1 (NCall f q xs) s ->
    head_not (fun r => r =? C """") s -> line_cmd nv w e true (NExCall p a (Some (NCall f q xs))) (h ++ s)
| lc_return e a h n s p : pl_fun w = true -> command nv (T "parse_cmd_return") s a h -> written e 1 n s ->
    line_cmd nv w e true (NReturn p a (Some n)) (h ++ s)
| lc_return_nothing a h p : pl_fun w = true -> command nv (T "parse_cmd_return") [] a h ->
    line_cmd nv w false false (NReturn p a None) h
| lc_throw e a h n s p : command nv (T "parse_cmd_throw") s a h -> written e 1 n s ->
    line_cmd nv w e true (NThrow p a (Some n)) (h ++ s)
| lc_eval e a h n s p : command nv (T "parse_cmd_eval") s a h -> written e 1 n s ->
    line_cmd nv w e true (NEval p a (Some n)) (h ++ s)
| lc_let e a h l ls r sl op w1 w2 n s p : command nv (T "parse_cmd_let") sl a h -> In op assign_ops ->
    written_lhs variable w1 op l ls r sl -> gap w1 -> gap w2 -> written e 1 n s ->
    line_cmd nv w e true (NLet p a op l ls r (Some n)) (h ++ sl ++ w1 ++ op ++ w2 ++ s)
| lc_const e a h l ls r sl w1 w2 n s p : command nv (T "parse_cmd_const") sl a h ->
    written_lhs const_variable w1 (T "=") l ls r sl -> gap w1 -> gap w2 -> written e 1 n s ->
    line_cmd nv w e true (NLet p a (T "=") l ls r (Some n)) (h ++ sl ++ w1 ++ T "=" ++ w2 ++ s)
| lc_unlet a h ns s p : command nv (T "parse_cmd_unlet") s a h -> written_vars ns s ->
    line_cmd nv w false true (NUnLet p a ns) (h ++ s)
| lc_lockvar a h z d w1 ns s p : command nv (T "parse_cmd_lockvar") (d ++ w1 ++ s) a h -> depth_text z d ->
    gap w1 -> written_vars ns s -> line_cmd nv w false true (NLockVar p a z ns) (h ++ d ++ w1 ++ s)
| lc_unlockvar a h z d w1 ns s p : command nv (T "parse_cmd_unlockvar") (d ++ w1 ++ s) a h -> depth_text z d ->
    gap w1 -> written_vars ns s -> line_cmd nv w false true (NUnLockVar p a z ns) (h ++ d ++ w1 ++ s)
| lc_break a h p : pl_loop w = true -> command nv (T "parse_cmd_break") [] a h ->
    line_cmd nv w false true (NBreak p a) h
| lc_continue a h p : pl_loop w = true -> command nv (T "parse_cmd_continue") [] a h ->
    line_cmd nv w false true (NContinue p a) h
| lc_delfunction a h n s p : command nv (T "parse_cmd_delfunction") s a h -> written_target n s ->
    (forall x y u v, n <> NSlice x y u v) -> line_cmd nv w false true (NDelFunction p a (Some n)) (h ++ s)
| lc_echohl a h s p : command nv (T "parse_cmd_echohl") s a h -> head_not iswhite s ->
    forallb (fun r => negb (mem_N r (T "|"""))) s = true -> line_cmd nv w true true (NEchohl p a s) (h ++ s).

(** * Sequences of commands *)

(** Blanks and colons before a command. *)
Definition lead (s : text) : Prop := forallb (fun r => iswhite r || (r =? C ":")) s = true.

(** What ends a command: the line end, a bar, or a comment. *)
Inductive ended : bool -> bool -> list node -> list cell -> Prop :=
| en_line e cm w : gap w -> (e = true -> w = []) -> ended e cm [] (chars w ++ [EOL])
| en_bar cm w : gap w -> ended false cm [] (chars (w ++ T "|"))
| en_comment w p s : gap w -> ended false true [NComment p s] (chars (w ++ C """" :: s) ++ [EOL]).

(** * Ex commands kept as text *)

(** An expression in backquotes. *)
Definition backquote_expression (s : text) : Prop :=
  exists w n u, gap w /\ written false 1 n u /\ s = w ++ u.

(** The commands whose text goes on to a bar, a comment, or the end of the line. *)
Definition text_parsers : list text :=
  [ T "parse_cmd_common"; T "parse_cmd_usercmd"; T "parse_wincmd"; T "parse_cmd_syntax" ] ++ script_parsers.

(** Listings: :let, :const and :function with names only are kept as text. *)
Definition listing_parsers : list text := [T "parse_cmd_let"; T "parse_cmd_const"; T "parse_cmd_function"].

(** [listing P s]: the rest [s] of the line makes the command of the kind [P] a listing.
    After the names nothing looks like an operator. *)
Inductive listing (P : text) : text -> Prop :=
| li_nothing w u : In P listing_parsers -> gap w -> u = [] \/ begins (T "|") u \/ begins (T """") u ->
    listing P (w ++ u)
| li_let w0 l ls r s w u : P = T "parse_cmd_let" -> gap w0 -> written_lhs variable w u l ls r s -> gap w ->
    no_operator w u -> ~ begins (T "=") u -> listing P (w0 ++ s ++ w ++ u)
| li_const w0 l ls r s w u : P = T "parse_cmd_const" -> gap w0 -> written_lhs const_variable w u l ls r s -> gap w ->
    no_operator w u -> ~ begins (T "=") u -> listing P (w0 ++ s ++ w ++ u)
| li_pattern w u : P = T "parse_cmd_function" -> gap w -> listing P (w ++ T "/" ++ u)
| li_function w0 n s w u : P = T "parse_cmd_function" -> gap w0 -> written_target n s -> funcname n -> follows n w u ->
    gap w -> no_operator w u -> listing P (w0 ++ s ++ w ++ u).

(** [line_after t z]: [z] can be the rest of the line when the text goes on with [t]. *)
Definition line_after (t : list cell) (z : text) : Prop :=
  t = chars z ++ [EOL] \/ exists v u, t = chars v /\ z = v ++ u.

(** The text of a command that takes the lines [ls] below its own line [l]. *)
Definition joined (l : text) (ls : list text) : text := l ++ concat (map (cons 10) ls).

Section Written.
Context (nv : bool).

(** [text_line l a x tl nm bang white opts kept z]: a line with the head [a] of the command
    [x], of which the node keeps [kept], when [z] stands after it. *)
Definition text_line (l : text) (a : aexarg) (x : cmd) (tl nm bang white opts kept z : text) : Prop :=
  head_line nv x (ast_head a) tl nm bang white opts (kept ++ z) /\
  ~ begins (T "#!") (l ++ tl ++ nm ++ bang ++ white ++ opts ++ kept ++ z) /\
  kept_text backquote_expression x (ae_usefilter a) (kept ++ z) kept /\
  (In (c_parser x) listing_parsers -> listing (c_parser x) (kept ++ z)).

(** A line with modifiers or a range [tl] and no command; [z] follows. *)
Definition bare_line (tl : text) (h : head_fields) (z : text) : Prop :=
  lead_text h tl z /\ (z = [] \/ begins [34] z) /\
  head_not (fun r => iswhite r || (r =? C ":")) tl.
Definition bare_head (h : head_fields) : Prop :=
  h = mkHead (hf_modifiers h) (hf_range h) 0 0 [] [] [] false 0 false 0 [].

(** [block w ns s]: [s] is a text for the statements [ns] at the place [w]. A comment
    after a command that opens a block is the first statement of the block. *)
Inductive block_cmd : place -> bool -> bool -> node -> list cell -> Prop :=
| bc_line w e cm n s : line_cmd nv w e cm n s -> block_cmd w e cm n (chars s)
| bc_if w e a h c sc cs t b sb es el se l a' h' p q :
    command nv (T "parse_cmd_if") sc a h -> written e 1 c sc -> ended e true cs t ->
    blocks (in_block w) b sb -> if_parts w es el se -> lead l -> command nv (T "parse_cmd_endif") [] a' h' ->
    block_cmd w false true (NIf p a (cs ++ b) (Some c) es el (Some (NEndIf q a')))
              (chars (h ++ sc) ++ t ++ sb ++ se ++ chars (l ++ h'))
| bc_while w e a h c sc cs t b sb l a' h' p q :
    command nv (T "parse_cmd_while") sc a h -> written e 1 c sc -> ended e true cs t ->
    blocks (in_loop w) b sb -> lead l -> command nv (T "parse_cmd_endwhile") [] a' h' ->
    block_cmd w false true (NWhile p a (cs ++ b) (Some c) (Some (NEndWhile q a')))
              (chars (h ++ sc) ++ t ++ sb ++ chars (l ++ h'))
| bc_for w e a h x xs r sx w1 w2 c sc cs t b sb l a' h' p q :
    command nv (T "parse_cmd_for") sx a h -> written_lhs variable w1 (T "in") x xs r sx -> gap w1 -> gap w2 ->
    written e 1 c sc -> head_not isalpha (w2 ++ sc) -> ended e true cs t ->
    blocks (in_loop w) b sb -> lead l -> command nv (T "parse_cmd_endfor") [] a' h' ->
    block_cmd w false true (NFor p a (cs ++ b) x xs r (Some c) (Some (NEndFor q a')))
              (chars (h ++ sx ++ w1 ++ T "in" ++ w2 ++ sc) ++ t ++ sb ++ chars (l ++ h'))
| bc_try w a h cs t b sb es f se l a' h' p q :
    command nv (T "parse_cmd_try") [] a h -> ended false true cs t ->
    blocks (in_block w) b sb -> try_parts w es f se -> lead l -> command nv (T "parse_cmd_endtry") [] a' h' ->
    block_cmd w false true (NTry p a (cs ++ b) es f (Some (NEndTry q a')))
              (chars h ++ t ++ sb ++ se ++ chars (l ++ h'))
(** The rest of the line after :endfunction is not read. *)
| bc_function w a h n sn w1 ps ds sp at_ sa cs t b sb l a' h' u p q :
    command nv (T "parse_cmd_function") sn a h -> written_target n sn -> funcname n -> gap w1 ->
    written_fparams false [] ps ds sp -> written_attrs (mkAttr false false false false) at_ sa ->
    ended false true cs t -> blocks (in_function w) b sb -> lead l ->
    command nv (T "parse_cmd_endfunction") u a' h' ->
    block_cmd w true false (NFunction p a (cs ++ b) (Some n) ps ds at_ (Some (NEndFunction q a')))
              (chars (h ++ sn ++ w1 ++ T "(" ++ sp ++ sa) ++ t ++ sb ++ chars (l ++ h' ++ u))

with blocks : place -> list node -> list cell -> Prop :=
| bl_end w : blocks w [] []
| bl_blank w l ns s : lead l -> blocks w ns s -> blocks w ns (chars l ++ EOL :: s)
| bl_hashbang w l ns s : blocks w ns s -> blocks w ns (chars (T "#!" ++ l) ++ EOL :: s)
| bl_comment w l p u ns s : lead l -> blocks w ns s ->
    blocks w (NComment p u :: ns) (chars (l ++ C """" :: u) ++ EOL :: s)
| bl_cmd w l e cm n u cs t ns s : lead l -> block_cmd w e cm n u -> ended e cm cs t -> blocks w ns s ->
    blocks w (n :: cs ++ ns) (chars l ++ u ++ t ++ s)
(** A here-document. A comment after the marker comes before the statement. *)
| bl_heredoc w l a h x xs r sx w1 w2 ks m sk cs t d sd ns s p q :
    lead l -> command nv (T "parse_cmd_let") sx a h -> written_lhs variable w1 (T "=<<") x xs r sx ->
    gap w1 -> gap w2 -> written_words ks m sk -> ended false true cs t -> (exists u, t = u ++ [EOL]) ->
    written_doc m d sd -> blocks w ns s ->
    blocks w (cs ++ NLet p a (T "=<<") x xs r (Some (NHeredoc q ks m d)) :: ns)
           (chars (l ++ h ++ sx ++ w1 ++ T "=<<" ++ w2 ++ sk) ++ t ++ sd ++ EOL :: s)

(** An Ex command that is kept as text, or a listing; :finish if it is inside a block. *)
| bl_text w l a x tl nm bang white opts kept cs t ns s p :
    lead l -> ae_cmd a = Some x -> placed_head a ->
    In (c_parser x) (text_parsers ++ listing_parsers) \/ (c_parser x = T "parse_cmd_finish" /\ pl_top w = false) ->
    (forall z, line_after t z -> text_line l a x tl nm bang white opts kept z) ->
    ended false true cs t -> blocks w ns s ->
    blocks w (NExcmd p (tl ++ nm ++ bang ++ white ++ opts ++ kept) a :: cs ++ ns)
           (chars (l ++ tl ++ nm ++ bang ++ white ++ opts ++ kept) ++ t ++ s)
(** An Ex command that takes the lines below it, up to its marker. *)
| bl_lines w l a x tl nm bang white opts rest m ls ns s p :
    lead l -> ae_cmd a = Some x -> placed_head a ->
    head_line nv x (ast_head a) tl nm bang white opts rest ->
    ~ begins (T "#!") (l ++ tl ++ nm ++ bang ++ white ++ opts ++ rest) ->
    takes_lines x rest (Some m) -> ~ In m ls -> blocks w ns s ->
    blocks w (NExcmd p (joined (tl ++ nm ++ bang ++ white ++ opts ++ rest) (ls ++ [m])) a :: ns)
           (lines_text ((l ++ tl ++ nm ++ bang ++ white ++ opts ++ rest) :: ls ++ [m]) ++ s)
(** Modifiers or a range without a command. *)
| bl_bare w l a tl cs t ns s p :
    lead l -> tl <> [] -> ae_cmd a = None -> ae_linepos a <> None -> ae_cmdpos a <> None -> ae_argpos a = None ->
    bare_head (ast_head a) -> ae_modifiers a <> [] \/ ae_range a <> [] ->
    (forall z, line_after t z -> bare_line tl (ast_head a) z) ->
    ended false true cs t -> blocks w ns s ->
    blocks w (NExcmd p tl a :: cs ++ ns) (chars (l ++ tl) ++ t ++ s)
(** A lone :hide, or a single quote that is not a mark, is read as nothing. *)
| bl_nothing w l h tl cs t ns s :
    lead l -> tl <> [] -> hf_modifiers h = [] -> hf_range h = [] ->
    (forall z, line_after t z -> bare_line tl h z) ->
    ended false true cs t -> blocks w ns s -> blocks w (cs ++ ns) (chars (l ++ tl) ++ t ++ s)

(** The :elseif and :else parts of :if. *)
with if_parts : place -> list node -> option node -> list cell -> Prop :=
| ip_end w : if_parts w [] None []
| ip_else w l a h cs t b sb p : lead l -> command nv (T "parse_cmd_else") [] a h -> ended false true cs t ->
    blocks (in_block w) b sb -> if_parts w [] (Some (NElse p a (cs ++ b))) (chars (l ++ h) ++ t ++ sb)
| ip_elseif w e l a h c sc cs t b sb es el s p : lead l -> command nv (T "parse_cmd_elseif") sc a h ->
    written e 1 c sc -> ended e true cs t -> blocks (in_block w) b sb -> if_parts w es el s ->
    if_parts w (NElseIf p a (cs ++ b) (Some c) :: es) el (chars (l ++ h ++ sc) ++ t ++ sb ++ s)

(** The :catch and :finally parts of :try. *)
with try_parts : place -> list node -> option node -> list cell -> Prop :=
| tp_end w : try_parts w [] None []
| tp_finally w l a h cs t b sb p : lead l -> command nv (T "parse_cmd_finally") [] a h -> ended false true cs t ->
    blocks (in_block w) b sb -> try_parts w [] (Some (NFinally p a (cs ++ b))) (chars (l ++ h) ++ t ++ sb)
| tp_catch w e l a h c sc cs t b sb es f s p : lead l -> command nv (T "parse_cmd_catch") sc a h ->
    written_pattern e c sc -> ended e true cs t -> blocks (in_block w) b sb -> try_parts w es f s ->
    try_parts w (NCatch p a (cs ++ b) c :: es) f (chars (l ++ h ++ sc) ++ t ++ sb ++ s).

End Written.

Scheme block_cmd_ind' := Induction for block_cmd Sort Prop
with blocks_ind' := Induction for blocks Sort Prop
with if_parts_ind' := Induction for if_parts Sort Prop
with try_parts_ind' := Induction for try_parts Sort Prop.
Combined Scheme written_script_mutind from block_cmd_ind', blocks_ind', if_parts_ind', try_parts_ind'.

(** A script: the statements [ns] at the top level, on the lines [ls]. What comes after a
    :finish that is not in a block is not read. A command that takes lines without a
    marker, or whose marker is missing, takes the rest of the script. *)
Inductive written_script (nv : bool) : list node -> list text -> Prop :=
| ws_blocks ns ls : blocks nv top_place ns (lines_text ls) -> written_script nv ns ls
| ws_finish ns s l a x tl nm bang white opts kept z v p ls :
    blocks nv top_place ns s -> lead l -> ae_cmd a = Some x -> placed_head a ->
    c_parser x = T "parse_cmd_finish" -> text_line nv l a x tl nm bang white opts kept z ->
    lines_text ls = s ++ chars (l ++ tl ++ nm ++ bang ++ white ++ opts ++ kept ++ z) ++ EOL :: v ->
    written_script nv (ns ++ [NExcmd p (tl ++ nm ++ bang ++ white ++ opts ++ kept) a]) ls
| ws_lines ns s l a x tl nm bang white opts rest m below p ls :
    blocks nv top_place ns s -> lead l -> ae_cmd a = Some x -> placed_head a ->
    head_line nv x (ast_head a) tl nm bang white opts rest ->
    ~ begins (T "#!") (l ++ tl ++ nm ++ bang ++ white ++ opts ++ rest) ->
    takes_lines x rest m -> (forall k, m = Some k -> ~ In k below) ->
    lines_text ls = s ++ lines_text ((l ++ tl ++ nm ++ bang ++ white ++ opts ++ rest) :: below) ->
    written_script nv (ns ++ [NExcmd p (joined (tl ++ nm ++ bang ++ white ++ opts ++ rest) below) a]) ls.
