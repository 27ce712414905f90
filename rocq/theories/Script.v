(** Specification: what a Vim script is. A relation between places of the text and
    the statement trees, written independently of the parser functions: it uses the
    trees, the character classes, the command tables and the expression grammar. *)
From Verif Require Import Base CharClass Reader Vnode CmdTable Cursor Grammar.
From Verif Require Export Head Extent.

(** * Places and gaps *)

(** Where a statement stands: at the top level, inside a function, inside a loop. *)
Record place := mkPl { pl_top : bool; pl_fun : bool; pl_loop : bool }.
Definition top_place : place := mkPl true false false.
Definition in_block (w : place) : place := mkPl false (pl_fun w) (pl_loop w).
Definition in_function (w : place) : place := mkPl false true (pl_loop w).
Definition in_loop (w : place) : place := mkPl false (pl_fun w) true.

(** [same_line a b]: [b] is reached from [a] without passing a line end. *)
Definition same_line (a b : cursor) : Prop := exists s, spells s a b.

(** The rest of the line at [c]. *)
Definition rest_of (c : cursor) (s : text) : Prop := exists z, spells s c z /\ at_end z.

(** [gap a b]: text between commands that leaves no node: blanks, colons, bars, line
    ends, lines starting with #!, a lone :hide and a lone quote (an unfinished mark). *)
Inductive gap : cursor -> cursor -> Prop :=
| gap_nil c : gap c c
| gap_eol p t c : gap t c -> gap (Cons EOL p t) c
| gap_char r p t c : iswhite r = true \/ r = C ":" \/ r = C "|" -> gap t c -> gap (Cons (R r) p t) c
| gap_bang s a b c : spells (T "#!" ++ s) a b -> at_end b -> gap b c -> gap a c
| gap_hide s a b c : spells s a b -> lone_hide s -> gap b c -> gap a c
| gap_mark a b c : spells (T "'") a b -> at_end b -> gap b c -> gap a c.

(** * Command headers *)

(** The head of a command line: [a] is the start of the line (after blanks and colons),
    [b] the command name, [d] the first argument, [c] the place from which the
    command-specific part is read; [e] records it. *)
Definition head_of (e : exarg) : head_fields :=
  mkHead (ea_modifiers e) (ea_range e) (ea_force_bin e) (ea_read_edit e) (ea_force_ff e) (ea_force_enc e)
    (ea_bad_char e) (ea_forceit e) (ea_append e) (ea_usefilter e) (ea_amount e) (ea_do_ecmd_cmd e).
Record header (neovim : bool) (a b d c : cursor) (x : cmd) (e : exarg) : Prop := {
  h_start : exists r, peek1 a = Some r /\ r <> C """";
  h_ab : same_line a b;
  h_name : exists s, s <> [] /\ forallb (fun r => negb (iswhite r)) s = true /\
                     named neovim s x /\ exists b', spells s b b' /\ same_line b' d;
  h_dc : same_line d c;
  h_text : exists lead w bang white opts rest b1 b2,
    spells lead a b /\ spells w b b1 /\ spells bang b1 b2 /\ spells white b2 d /\
    spells opts d c /\ rest_of c rest /\ head_text neovim x (head_of e) lead w bang white opts rest;
  h_line : ea_linepos e = Some (getpos a);
  h_cmd : ea_cmdpos e = Some (getpos b);
  h_arg : ea_argpos e = Some (getpos d);
  h_x : ea_cmd e = Some x }.

(** The commands whose node can be an Excmd. *)
Definition excmd_parsers : list text :=
  [ T "parse_cmd_common"; T "parse_cmd_usercmd"; T "parse_cmd_append"; T "parse_cmd_insert";
    T "parse_cmd_loadkeymap"; T "parse_cmd_lua"; T "parse_cmd_mzscheme"; T "parse_cmd_perl";
    T "parse_cmd_python"; T "parse_cmd_python3"; T "parse_cmd_ruby"; T "parse_cmd_tcl";
    T "parse_cmd_function"; T "parse_cmd_let"; T "parse_cmd_const";
    T "parse_wincmd"; T "parse_cmd_syntax" ].

(** * Pieces of commands *)

(** Names of :function and :delfunction. *)
Definition function_name (v : vnode) : Prop :=
  match v with
  | VIdent _ _ | VCurlyName _ _ | VSubscript _ _ _ | VDot _ _ _
  | VLit LOption _ _ | VLit LEnv _ _ | VLit LReg _ _ => True
  | _ => False
  end.

(** A plain function name starts with a capital, an underscore or "<", or contains a
    colon or a "#". *)
Definition plain_name_ok (s : text) : Prop :=
  (exists r t, s = r :: t /\ (r = C "<" \/ r = C "_" \/ isupper r = true)) \/
  In (C ":") s \/ In (C "#") s.

(** Assignment targets; a plain name is a variable name. *)
Definition target (v : vnode) : Prop :=
  match v with
  | VIdent _ s => isvarname s = true
  | VCurlyName _ _ | VSubscript _ _ _ | VSlice _ _ _ _ | VDot _ _ _
  | VLit LOption _ _ | VLit LEnv _ _ | VLit LReg _ _ => True
  | _ => False
  end.
Definition const_target (v : vnode) : Prop :=
  match v with VIdent _ s => isvarname s = true | VCurlyName _ _ => True | _ => False end.

(** "[a, b; rest]", after the bracket. *)
Inductive dtargets : cursor -> list vnode -> option vnode -> cursor -> Prop :=
| dt_last c v c1 p c' : dlval c v c1 -> target v -> tok_at KSqClose c1 p c' ->
    dtargets c [v] None c'
| dt_cons c v c1 p c2 vs r c' : dlval c v c1 -> target v -> tok_at KComma c1 p c2 ->
    dtargets c2 vs r c' -> dtargets c (v :: vs) r c'
| dt_rest c v c1 p c2 w c3 q c' : dlval c v c1 -> target v -> tok_at KSemicolon c1 p c2 ->
    dlval c2 w c3 -> target w -> tok_at KSqClose c3 q c' -> dtargets c [v] (Some w) c'.

(** The left side of :let and :for ([one] = [target]) and :const. *)
Inductive dlhs (one : vnode -> Prop) : cursor -> option vnode -> list vnode -> option vnode -> cursor -> Prop :=
| dh_one c v c' : dlval c v c' -> one v -> dlhs one c (Some v) [] None c'
| dh_list c p c1 vs r c' : tok_at KSqOpen c p c1 -> dtargets c1 vs r c' -> dlhs one c None vs r c'.

(** Blank-separated expressions, and the targets after the first argument of :unlet. *)
Inductive dexprs : cursor -> list vnode -> cursor -> Prop :=
| dx_nil c d : blank c d -> dexprs c [] d
| dx_cons c d v c1 vs c' : blank c d -> dexpr 1 d v c1 -> dexprs c1 vs c' -> dexprs c (v :: vs) c'.
Inductive dlvals : cursor -> list vnode -> cursor -> Prop :=
| dv_nil c d : blank c d -> dlvals c [] d
| dv_cons c d v c1 vs c' : blank c d -> dlval d v c1 -> target v -> dlvals c1 vs c' ->
    dlvals c (v :: vs) c'.

(** A default value of a parameter. [must] tells that one is required. *)
Inductive ddefault : bool -> cursor -> list vnode -> cursor -> Prop :=
| dd_none c : ddefault false c [] c
| dd_some must c p c1 v c' : tok_at KEq c p c1 -> dexpr 1 c1 v c' -> ddefault must c [v] c'.
Definition nonempty {A} (l : list A) : bool := match l with [] => false | _ => true end.

(** The parameters of :function, after "(". *)
Inductive dfparams : bool -> cursor -> list vnode -> list vnode -> cursor -> Prop :=
| fp_close must c p c' : tok_at KPClose c p c' -> dfparams must c [] [] c'
| fp_rest must c t c1 p c' : token_at c t c1 -> tk t = KDotDotDot -> tok_at KPClose c1 p c' ->
    dfparams must c [VIdent (tp t) (tv t)] [] c'
| fp_last must c t c1 ds c2 p c' : token_at c t c1 -> tk t = KIdent -> ddefault must c1 ds c2 ->
    tok_at KPClose c2 p c' -> dfparams must c [VIdent (tp t) (tv t)] ds c'
| fp_cons must c t c1 ds c2 p c3 vs es c' : token_at c t c1 -> tk t = KIdent ->
    ddefault must c1 ds c2 -> tok_at KComma c2 p c3 -> dfparams (must || nonempty ds) c3 vs es c' ->
    dfparams must c (VIdent (tp t) (tv t) :: vs) (ds ++ es) c'.

(** Distinct valid names, then possibly "..."; defaults belong to the last names. *)
Definition fn_params (rl da : list vnode) : Prop :=
  exists ps rest, rl = ps ++ rest /\ Forall is_param ps /\ NoDup (map name_of ps) /\
    Forall (fun v => name_of v <> T "firstline" /\ name_of v <> T "lastline") ps /\
    (rest = [] \/ exists v, rest = [v] /\ is_rest v) /\ (length da <= length ps)%nat.

(** The attributes after the parameter list. *)
Definition set_attr (w : text) (a : funcattr) : option funcattr :=
  if text_eqb w (T "range") then Some (mkAttr true (a_abort a) (a_dict a) (a_closure a))
  else if text_eqb w (T "abort") then Some (mkAttr (a_range a) true (a_dict a) (a_closure a))
  else if text_eqb w (T "dict") then Some (mkAttr (a_range a) (a_abort a) true (a_closure a))
  else if text_eqb w (T "closure") then Some (mkAttr (a_range a) (a_abort a) (a_dict a) true)
  else None.
Inductive dattrs : funcattr -> cursor -> funcattr -> cursor -> Prop :=
| da_nil a c d : blank c d -> dattrs a c a d
| da_word a c d w c1 a1 a2 c' : blank c d -> spells w d c1 -> some_of isalpha w ->
    set_attr w a = Some a1 -> dattrs a1 c1 a2 c' -> dattrs a c a2 c'.


(** The depth of :lockvar. *)
Inductive ddepth : cursor -> Z -> cursor -> Prop :=
| dp_none c d : blank c d -> ch_in isdigit (peek d) = false -> ddepth c 0%Z d
| dp_some c d s c' : blank c d -> spells s d c' -> some_of isdigit s ->
    ch_in isdigit (peek c') = false -> ddepth c (Z.of_N (decimal s)) c'.

(** The pattern of :catch: nothing, or the text after a delimiter up to the same
    delimiter or to the end of the line. *)
Inductive dpattern : cursor -> text -> cursor -> Prop :=
| pat_none c d : blank c d -> (forall r, peek1 d = Some r -> r = C "|" \/ r = C """") ->
    dpattern c [] d
| pat_closed c d r s p c' : blank c (Cons (R r) p d) -> r <> C "|" -> r <> C """" ->
    pattern_text r 0 s 0 -> (exists q, spells s d (Cons (R r) q c')) -> dpattern c s c'
| pat_open c d r s j p c' : blank c (Cons (R r) p d) -> r <> C "|" -> r <> C """" ->
    pattern_text r 0 s j -> spells s d c' -> at_end c' -> dpattern c s c'.

(** Here-documents: words, marker, and lines up to the marker. *)
Inductive dhwords : cursor -> list vnode -> text -> cursor -> Prop :=
| hw_marker c d m c' : blank c d -> spells m d c' -> some_of iswordc m ->
    (forall r t, m = r :: t -> islower r = false) -> dhwords c [] m c'
| hw_word c d w c1 ws m c' : blank c d -> spells w d c1 -> some_of iswordc w ->
    (forall r t, w = r :: t -> islower r = true) -> dhwords c1 ws m c' ->
    dhwords c (VLit LString (getpos d) w :: ws) m c'.

(** The rest of the line holding the marker: nothing, a bar, or a comment. *)
Inductive dtrail : cursor -> list vnode -> cursor -> Prop :=
| tr_eof c d : blank c d -> is_eof d = true -> dtrail c [] d
| tr_eol c p t : blank c (Cons EOL p t) -> dtrail c [] t
| tr_bar c p t : blank c (Cons (R (C "|")) p t) -> dtrail c [] t
| tr_comment c p t s q u : blank c (Cons (R (C """")) p t) -> spells s t (Cons EOL q u) ->
    dtrail c [VComment p s] u.

(** The lines up to the first one equal to [m]. *)
Inductive dhlines (m : text) : cursor -> list vnode -> cursor -> Prop :=
| hl_end c c' : spells m c c' -> at_end c' -> dhlines m c [] c'
| hl_line c s p c1 ls c' : spells s c (Cons EOL p c1) -> s <> m -> dhlines m c1 ls c' ->
    dhlines m c (VLit LString (getpos c) s :: ls) c'.

(** * Commands and blocks *)

Definition assign_ops : list text :=
  [T "+="; T "-="; T ".="; T "..="; T "*="; T "/="; T "%="; T "="].

(** * The text kept by an Excmd *)

(** The text of an expression. *)
Definition expression_text (s : text) : Prop := exists c v c', dexpr 1 c v c' /\ spells s c c'.

(** [lines_taken m y z c']: [y] is the end of a line. The following lines are taken, up to
    and including the first one equal to the marker [m], or all of them if there is no such
    line or no marker. [z] is the end of the last line taken and [c'] the place after it. *)
Inductive lines_taken (m : option text) : cursor -> cursor -> cursor -> Prop :=
| lt_eof p t : is_eof t = true -> lines_taken m (Cons EOL p t) (Cons EOL p t) t
| lt_marker p t s z : m = Some s -> is_eof t = false -> spells s t z -> at_end z ->
    lines_taken m (Cons EOL p t) z z
| lt_line p t s q u z c' : m <> Some s -> spells s t (Cons EOL q u) ->
    lines_taken m (Cons EOL q u) z c' -> lines_taken m (Cons EOL p t) z c'.

(** A command of the kind [P] whose arguments at [c] are kept as text, although others of
    the kind have a tree: :let, :const and :function without a value or a body. *)
Inductive listing : text -> cursor -> Prop :=
| li_plain P c : In P [T "parse_cmd_common"; T "parse_cmd_usercmd"; T "parse_cmd_finish"] -> listing P c
| li_none P c d : In P [T "parse_cmd_let"; T "parse_cmd_const"; T "parse_cmd_function"] -> blank c d ->
    (forall r, peek1 d = Some r -> r = C "|" \/ r = C """") -> listing P c
| li_let c l ls rs c1 d : dlhs target c l ls rs c1 -> blank c1 d ->
    (forall op d1, In op (T "=<<" :: assign_ops) -> ~ spells op d d1) -> listing (T "parse_cmd_let") c
| li_const c l ls rs c1 d : dlhs const_target c l ls rs c1 -> blank c1 d ->
    peek1 d <> Some (C "=") -> listing (T "parse_cmd_const") c
| li_search c d : blank c d -> peek1 d = Some (C "/") -> listing (T "parse_cmd_function") c
| li_function c c0 l c1 d : blank c c0 -> dlval c0 l c1 -> function_name l ->
    (forall p s, l = VIdent p s -> plain_name_ok s) ->
    blank c1 d -> peek1 d <> Some (C "(") -> listing (T "parse_cmd_function") c.

(** The commands that pass their argument to an interpreter. *)
Definition script_parsers : list text :=
  [ T "parse_cmd_lua"; T "parse_cmd_mzscheme"; T "parse_cmd_perl"; T "parse_cmd_python";
    T "parse_cmd_python3"; T "parse_cmd_ruby"; T "parse_cmd_tcl" ].

(** [extent P x filter c z c']: of the text at [c], after the head of the command [x] of
    the kind [P], the node keeps what is before [z], and the next command is read from
    [c'] on. *)
Inductive extent (P : text) (x : cmd) (filter : bool) : cursor -> cursor -> cursor -> Prop :=
| ex_text c z c' s w rest : listing P c -> text_of expression_text x filter s w rest ->
    spells s c z -> spells w z c' -> rest_of c' rest -> extent P x filter c z c'
| ex_append c s y z c' : In P [T "parse_cmd_append"; T "parse_cmd_insert"] ->
    spells s c y -> lines_taken (Some (T ".")) y z c' -> extent P x filter c z c'
| ex_keymap c s y z c' : P = T "parse_cmd_loadkeymap" ->
    spells s c y -> lines_taken None y z c' -> extent P x filter c z c'
| ex_script c w1 w2 m y z c' : In P script_parsers -> all_white w1 -> all_white w2 ->
    starts_with iswhite m = false -> spells (w1 ++ T "<<" ++ w2 ++ m) c y ->
    lines_taken (Some (match m with [] => T "." | _ => m end)) y z c' -> extent P x filter c z c'
| ex_script_line c s z : In P script_parsers -> spells s c z -> at_end z ->
    ~ (exists w t, all_white w /\ s = w ++ T "<<" ++ t) -> extent P x filter c z z
| ex_wincmd c s w z c' rest : P = T "parse_wincmd" -> window_key s -> spells s c z ->
    all_white w -> spells w z c' -> rest_of c' rest -> ends_command rest -> extent P x filter c z c'
| ex_syntax c s z rest : P = T "parse_cmd_syntax" -> syntax_text rest s -> spells s c z ->
    rest_of z rest -> extent P x filter c z z.
Definition kept (P : text) (e : exarg) (c z c' : cursor) : Prop :=
  exists x, ea_cmd e = Some x /\ extent P x (ea_usefilter e) c z c'.

Section Script.
Context (neovim : bool).

(** [head P a b d c e]: a header of a command with parser [P]. *)
Definition head (P : text) (a b d c : cursor) (e : exarg) : Prop :=
  exists x, header neovim a b d c x e /\ c_parser x = P.

Definition echo_parser (k : echokind) : text :=
  match k with
  | EEcho => T "parse_cmd_echo" | EEchon => T "parse_cmd_echon"
  | EEchomsg => T "parse_cmd_echomsg" | EEchoerr => T "parse_cmd_echoerr"
  end.

(** [cmd_nodes w a c vs]: the text from [a] to [c] is one command (with its block, if
    it opens one) at place [w], and [vs] are its nodes. *)
Inductive cmd_nodes : place -> cursor -> cursor -> list vnode -> Prop :=
| cn_comment w p t s c : spells s t c -> at_end c ->
    cmd_nodes w (Cons (R (C """")) p t) c [VComment p s]
| cn_modifier w a c e : (exists r, peek1 a = Some r /\ r <> C """") -> same_line a c ->
    (at_end c \/ peek1 c = Some (C """")) ->
    ea_linepos e = Some (getpos a) -> ea_cmdpos e = Some (getpos c) ->
    ea_argpos e = None -> ea_cmd e = None -> (ea_modifiers e <> [] \/ ea_range e <> []) ->
    (exists lead rest, spells lead a c /\ rest_of c rest /\ lead_text (head_of e) lead rest) ->
    cmd_nodes w a c [VExcmd (getpos c) e (getstr a c)]
| cn_excmd w P a b d c e z c' : In P excmd_parsers -> head P a b d c e ->
    kept P e c z c' -> sfx z c -> gap z c' -> cmd_nodes w a c' [VExcmd (getpos b) e (getstr a z)]
| cn_finish_inner w a b d c e z c' : pl_top w = false -> head (T "parse_cmd_finish") a b d c e ->
    kept (T "parse_cmd_finish") e c z c' -> sfx z c -> gap z c' -> cmd_nodes w a c' [VExcmd (getpos b) e (getstr a z)]
| cn_finish w a b d c e z c1 c' : pl_top w = true -> head (T "parse_cmd_finish") a b d c e ->
    kept (T "parse_cmd_finish") e c z c1 -> sfx z c -> sfx c' z -> is_eof c' = true -> cmd_nodes w a c' [VExcmd (getpos b) e (getstr a z)]
| cn_delfunction w a b d c e v c' : head (T "parse_cmd_delfunction") a b d c e ->
    dlval c v c' -> function_name v -> cmd_nodes w a c' [VDelfunction (getpos b) e v]
| cn_return0 w a b d c e c' : pl_fun w = true -> head (T "parse_cmd_return") a b d c e ->
    blank c c' -> cmd_nodes w a c' [VReturn (getpos b) e None]
| cn_return w a b d c e v c' : pl_fun w = true -> head (T "parse_cmd_return") a b d c e ->
    dexpr 1 c v c' -> cmd_nodes w a c' [VReturn (getpos b) e (Some v)]
| cn_call w a b d c e p f args c' : head (T "parse_cmd_call") a b d c e ->
    dexpr 1 c (VCall p f args) c' -> cmd_nodes w a c' [VExcall (getpos b) e (VCall p f args)]
| cn_let w a b d c e l ls rs c1 d1 op c2 v c' : head (T "parse_cmd_let") a b d c e ->
    dlhs target c l ls rs c1 -> blank c1 d1 -> spells op d1 c2 -> In op assign_ops ->
    dexpr 1 c2 v c' -> cmd_nodes w a c' [VLet (getpos b) e op l ls rs (Some v)]
| cn_heredoc w a b d c e l ls rs c1 d1 c2 ws m c3 cms c4 body c' :
    head (T "parse_cmd_let") a b d c e -> dlhs target c l ls rs c1 -> blank c1 d1 ->
    spells (T "=<<") d1 c2 -> dhwords c2 ws m c3 -> dtrail c3 cms c4 -> dhlines m c4 body c' ->
    cmd_nodes w a c' (cms ++ [VLet (getpos b) e (T "=<<") l ls rs (Some (VHeredoc (getpos b) ws m body))])
| cn_const w a b d c e l ls rs c1 d1 c2 v c' : head (T "parse_cmd_const") a b d c e ->
    dlhs const_target c l ls rs c1 -> blank c1 d1 -> spells (T "=") d1 c2 ->
    dexpr 1 c2 v c' -> cmd_nodes w a c' [VConst (getpos b) e (T "=") l ls rs (Some v)]
| cn_unlet w a b d c e v c1 vs c' : head (T "parse_cmd_unlet") a b d c e ->
    dexpr 1 c v c1 -> dlvals c1 vs c' -> cmd_nodes w a c' [VUnlet (getpos b) e (v :: vs)]
| cn_lockvar w a b d c e z c1 v c2 vs c' : head (T "parse_cmd_lockvar") a b d c e ->
    ddepth c z c1 -> dexpr 1 c1 v c2 -> dlvals c2 vs c' ->
    cmd_nodes w a c' [VLockvar (getpos b) e z (v :: vs)]
| cn_unlockvar w a b d c e z c1 v c2 vs c' : head (T "parse_cmd_unlockvar") a b d c e ->
    ddepth c z c1 -> dexpr 1 c1 v c2 -> dlvals c2 vs c' ->
    cmd_nodes w a c' [VUnlockvar (getpos b) e z (v :: vs)]
| cn_continue w a b d c e : pl_loop w = true -> head (T "parse_cmd_continue") a b d c e ->
    cmd_nodes w a c [VContinue (getpos b) e]
| cn_break w a b d c e : pl_loop w = true -> head (T "parse_cmd_break") a b d c e ->
    cmd_nodes w a c [VBreak (getpos b) e]
| cn_throw w a b d c e v c' : head (T "parse_cmd_throw") a b d c e -> dexpr 1 c v c' ->
    cmd_nodes w a c' [VThrow (getpos b) e v]
| cn_eval w a b d c e v c' : head (T "parse_cmd_eval") a b d c e -> dexpr 1 c v c' ->
    cmd_nodes w a c' [VEval (getpos b) e v]
| cn_echo w k a b d c e vs c' : head (echo_parser k) a b d c e -> dexprs c vs c' ->
    cmd_nodes w a c' [VEcho k (getpos b) e vs]
| cn_echohl w a b d c e s c' : head (T "parse_cmd_echohl") a b d c e -> spells s c c' ->
    forallb (fun r => negb ((r =? C "|") || (r =? C """"))) s = true ->
    (forall r, peek1 c' = Some r -> r = C "|" \/ r = C """") ->
    cmd_nodes w a c' [VEchohl (getpos b) e s]
| cn_execute w a b d c e vs c' : head (T "parse_cmd_execute") a b d c e -> dexprs c vs c' ->
    cmd_nodes w a c' [VExecute (getpos b) e vs]
| cn_function w a b d c e c0 l c1 c2 c3 rl da c4 at_ c5 body c6 a' b' d' c8 e' s c' :
    head (T "parse_cmd_function") a b d c e ->
    blank c c0 -> dlval c0 l c1 -> function_name l ->
    (forall p s, l = VIdent p s -> plain_name_ok s) ->
    blank c1 c2 -> spells (T "(") c2 c3 -> dfparams false c3 rl da c4 -> fn_params rl da ->
    dattrs (mkAttr false false false false) c4 at_ c5 ->
    block (in_function w) c5 c6 body ->
    gap c6 a' -> head (T "parse_cmd_endfunction") a' b' d' c8 e' -> spells s c8 c' -> at_end c' ->
    cmd_nodes w a c' [VFunction (getpos b) e body l rl da at_ (Some (VEndfunction (getpos b') e'))]
| cn_if w a b d c e v c1 body es el c2 a' b' d' c' e' :
    head (T "parse_cmd_if") a b d c e -> dexpr 1 c v c1 ->
    if_chain w c1 c2 body es el -> gap c2 a' -> head (T "parse_cmd_endif") a' b' d' c' e' ->
    cmd_nodes w a c' [VIf (getpos b) e body v es el (Some (VEndif (getpos b') e'))]
| cn_while w a b d c e v c1 body c2 a' b' d' c' e' :
    head (T "parse_cmd_while") a b d c e -> dexpr 1 c v c1 ->
    block (in_loop w) c1 c2 body -> gap c2 a' -> head (T "parse_cmd_endwhile") a' b' d' c' e' ->
    cmd_nodes w a c' [VWhile (getpos b) e body v (Some (VEndwhile (getpos b') e'))]
| cn_for w a b d c e l ls rs c1 d1 c2 v c3 body c4 a' b' d' c' e' :
    head (T "parse_cmd_for") a b d c e -> dlhs target c l ls rs c1 -> blank c1 d1 ->
    spells (T "in") d1 c2 -> dexpr 1 c2 v c3 ->
    block (in_loop w) c3 c4 body -> gap c4 a' -> head (T "parse_cmd_endfor") a' b' d' c' e' ->
    cmd_nodes w a c' [VFor (getpos b) e body l ls rs v (Some (VEndfor (getpos b') e'))]
| cn_try w a b d c e body cs fi c2 a' b' d' c' e' :
    head (T "parse_cmd_try") a b d c e ->
    try_chain w c c2 body cs fi -> gap c2 a' -> head (T "parse_cmd_endtry") a' b' d' c' e' ->
    cmd_nodes w a c' [VTry (getpos b) e body cs fi (Some (VEndtry (getpos b') e'))]

(** A sequence of commands from [a] to [c]. *)
with block : place -> cursor -> cursor -> list vnode -> Prop :=
| bl_nil w a : block w a a []
| bl_cmd w a c1 vs a1 c us : block w a c1 vs -> gap c1 a1 -> cmd_nodes w a1 c us ->
    block w a c (vs ++ us)

(** The parts of :if between its condition and :endif. *)
with if_chain : place -> cursor -> cursor -> list vnode -> list vnode -> option vnode -> Prop :=
| ic_body w c c' body : block (in_block w) c c' body -> if_chain w c c' body [] None
| ic_elseif w c c1 body es a b d c2 e v c3 c' body2 :
    if_chain w c c1 body es None -> gap c1 a -> head (T "parse_cmd_elseif") a b d c2 e ->
    dexpr 1 c2 v c3 -> block (in_block w) c3 c' body2 ->
    if_chain w c c' body (es ++ [VElseif (getpos b) e body2 v]) None
| ic_else w c c1 body es a b d c2 e c' body2 :
    if_chain w c c1 body es None -> gap c1 a -> head (T "parse_cmd_else") a b d c2 e ->
    block (in_block w) c2 c' body2 ->
    if_chain w c c' body es (Some (VElse (getpos b) e body2))

(** The parts of :try. *)
with try_chain : place -> cursor -> cursor -> list vnode -> list vnode -> option vnode -> Prop :=
| tc_body w c c' body : block (in_block w) c c' body -> try_chain w c c' body [] None
| tc_catch w c c1 body cs a b d c2 e pat c3 c' body2 :
    try_chain w c c1 body cs None -> gap c1 a -> head (T "parse_cmd_catch") a b d c2 e ->
    dpattern c2 pat c3 -> block (in_block w) c3 c' body2 ->
    try_chain w c c' body (cs ++ [VCatch (getpos b) e body2 pat]) None
| tc_finally w c c1 body cs a b d c2 e c' body2 :
    try_chain w c c1 body cs None -> gap c1 a -> head (T "parse_cmd_finally") a b d c2 e ->
    block (in_block w) c2 c' body2 ->
    try_chain w c c' body cs (Some (VFinally (getpos b) e body2)).

End Script.

Scheme cmd_nodes_ind' := Induction for cmd_nodes Sort Prop
with block_ind' := Induction for block Sort Prop
with if_chain_ind' := Induction for if_chain Sort Prop
with try_chain_ind' := Induction for try_chain Sort Prop.
Combined Scheme script_mutind from cmd_nodes_ind', block_ind', if_chain_ind', try_chain_ind'.

(** A script: the whole text. *)
Definition script (neovim : bool) (c : cursor) (v : vnode) : Prop :=
  exists body c1 c', v = VToplevel (getpos c) body /\ block neovim top_place c c1 body /\
    gap c1 c' /\ is_eof c' = true.
