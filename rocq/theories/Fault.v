(** Specification: what an error report says. Each message the parser can give, with what
    stands in the text [B] at the place [s] of the error and before it. Nothing here refers
    to the parser functions; a place before [s] is given as a suffix of [B]. *)
From Verif Require Import Base CharClass Reader Vnode CmdTable Cursor Grammar Script.

(** A character in a message. *)
Definition shown (c : cursor) : text :=
  match c with Eof _ => T "<EOF>" | Cons EOL _ _ => T "<EOL>" | Cons (R r) _ _ => [r] end.

(** The token [t] stands at [s]. *)
Definition stands (s : cursor) (t : token) : Prop := exists c', token_at s t c' /\ tp t = getpos s.

(** The characters a token starts with. *)
Definition starts_token (r : N) : bool :=
  isdigit r || isnamec1 r || one_of (34 :: T "|&=!><+-.*/%?:#()[]{},'$@;`") r.

(** * Expressions *)

Section Expr.
Context (B : cursor).

(** [D false c]: an expression begins at [c]; [D true c]: a target begins at [c]. This is said
    of the places that do not follow from the expression around them. *)
Context (D : bool -> cursor -> Prop).

(** The tokens an operand starts with ("<SID>" is the other one), and a target. *)
Definition operand_tokens : list tok :=
  [ KNumber; KBlob; KDQuote; KSQuote; KSqOpen; KCOpen; KLitCOpen; KPOpen; KOption; KIdent; KEnv; KReg;
    KCmp OIs MNone; KCmp OIs MCs; KCmp OIsNot MNone; KCmp OIsNot MCs ].
Definition target_tokens : list tok := [ KCOpen; KOption; KIdent; KEnv; KReg ].

(** What may come after an expression inside another: in an argument list, a list, a
    dictionary, a parenthesis, a subscript, a lambda and a ternary. *)
Definition followers : list (list tok) :=
  [ [KComma; KPClose]; [KComma; KSqClose]; [KComma; KCClose]; [KPClose]; [KColon; KSqClose]; [KSqClose];
    [KCClose]; [KColon] ].

(** The tokens after which an operand is due: the operators, and what opens or separates the
    parts of an expression. *)
Definition before_operand (k : tok) : Prop :=
  match k with
  | KOrOr | KAndAnd | KCmp _ _ | KPlus | KMinus | KDot | KDotDot | KStar | KSlash | KPercent | KNot
  | KQuestion | KColon | KPOpen | KSqOpen | KCOpen | KComma | KArrow | KEq => True
  | _ => False
  end.

(** An operand is due at [c]: an expression begins there, or such a token ends there, or the
    brace in a name like a{b}c. A target is due: it begins there, or it is in a list. *)
Definition operand_due (c : cursor) : Prop :=
  D false c \/ (exists c0 t, sfx c0 B /\ token_at c0 t c /\ before_operand (tk t)) \/
  (exists p, sfx (Cons (R (C "{")) p c) B).
Definition target_due (c : cursor) : Prop :=
  D true c \/ (exists c0 t, sfx c0 B /\ token_at c0 t c /\ In (tk t) [KSqOpen; KComma; KSemicolon]).
(** A parameter is due at [c]: behind an opening parenthesis or a comma. *)
Definition param_due (c : cursor) : Prop :=
  (exists p, sfx (Cons (R (C "(")) p c) B) \/ (exists c0 t, sfx c0 B /\ token_at c0 t c /\ tk t = KComma).

(** [wanted s ks]: at [s] one of the tokens [ks] is required. *)
Inductive wanted : cursor -> list tok -> Prop :=
| wa_operand c s : operand_due c -> blank c s -> (forall w c', is_sid w -> ~ spells w s c') -> wanted s operand_tokens
| wa_target c s : target_due c -> blank c s -> (forall w c', is_sid w -> ~ spells w s c') -> wanted s target_tokens
| wa_after c v c1 s ks : sfx c B -> dexpr 1 c v c1 -> blank c1 s -> In ks followers -> wanted s ks
| wa_key lit c k c1 s ks : sfx c B -> dkey lit c k c1 -> blank c1 s -> In ks [[KColon; KCClose]; [KColon]] ->
    wanted s ks
| wa_dots c t c1 s k : sfx c B -> token_at c t c1 -> tk t = KDotDotDot -> blank c1 s ->
    In k [KArrow; KPClose] -> wanted s [k]
| wa_param c s : param_due c -> blank c s -> wanted s [KIdent; KDotDotDot]
| wa_name c t c1 s : sfx c B -> token_at c t c1 -> tk t = KIdent -> blank c1 s -> wanted s [KComma; KPClose].

(** [params_to c b xs e]: the parameters [xs] are between [c] and [e], the last one first, each
    followed by a comma; [b] tells whether one of them has a default value. *)
Inductive params_to (c : cursor) : bool -> list text -> cursor -> Prop :=
| pt_start : params_to c false [] c
| pt_name b xs e t c1 p c2 : params_to c b xs e -> token_at e t c1 -> tk t = KIdent -> tok_at KComma c1 p c2 ->
    params_to c b (tv t :: xs) c2
| pt_default b xs e t c1 p c2 v c3 q c4 : params_to c b xs e -> token_at e t c1 -> tk t = KIdent ->
    tok_at KEq c1 p c2 -> dexpr 1 c2 v c3 -> tok_at KComma c3 q c4 -> params_to c true (tv t :: xs) c4.

(** A key of a #{} dictionary is due at [c]. *)
Definition key_due (c : cursor) : Prop :=
  (exists c0 p, sfx c0 B /\ tok_at KLitCOpen c0 p c) \/
  (exists c0 k c1 p c2 v c3 q, sfx c0 B /\ dkey true c0 k c1 /\ tok_at KColon c1 p c2 /\ dexpr 1 c2 v c3 /\
     tok_at KComma c3 q c).

(** A parameter, possibly with a default value, that ends at [s]. *)
Definition param_ends (s : cursor) : Prop :=
  (exists c t, sfx c B /\ token_at c t s /\ tk t = KIdent) \/ (exists c v, sfx c B /\ dexpr 1 c v s).

Inductive expr_fault (s : cursor) : text -> Prop :=
| ef_token t ks : stands s t -> wanted s ks -> ~ In (tk t) ks -> expr_fault s (T "unexpected token: " ++ tv t)
| ef_lambda t c u c1 n : stands s t -> sfx c B -> token_at c u c1 -> tk u = KIdent -> blank c1 s ->
    ~ In (tk t) [KComma; KArrow] -> some_of isdigit n ->
    expr_fault s (T "unexpected token: " ++ tv t ++ T ", type: " ++ n)
| ef_brace c v c1 : sfx c B -> dexpr 1 c v c1 -> blank c1 s -> peek1 s <> Some (C "}") ->
    expr_fault s (T "unexpected token: " ++ shown s)
| ef_char r : peek1 s = Some r -> iswhite r = false -> starts_token r = false ->
    expr_fault s (T "unexpected character: " ++ [r])
| ef_key e : sfx e B -> key_due e -> blank e s -> (forall r, peek1 s = Some r -> ~ litkey_text [r]) -> expr_fault s (T "unexpected character: " ++ shown s)
| ef_single q b : sfx q B -> spells (T "'" ++ b) q s -> sq_body b -> at_end s -> expr_fault s (T "unexpected EOL")
| ef_double q b : sfx q B -> spells (34 :: b) q s -> dq_body b -> at_end s -> expr_fault s (T "unexpectd EOL")
| ef_escape q b : sfx q B -> spells (34 :: b ++ [92]) q s -> dq_body b -> at_end s ->
    expr_fault s (T "ExprTokenizer: unexpected EOL")
| ef_litkey q w : sfx q B -> spells w q s -> litkey_text w -> at_end s -> expr_fault s (T "unexpectd EOL")
| ef_blob q z w a b c' : sfx q B -> In z (T "zZ") -> spells (C "0" :: z :: w) q s -> blob_text w ->
    spells [a; b] s c' -> isxdigit a = true -> isxdigit b = false ->
    expr_fault s (T "E973: Blob literal should have an even number of hex characters:" ++ [a; b])
| ef_args c vs c' t : sfx c B -> dlist KPClose c vs c' -> (20 < length vs)%nat -> sfx s c -> sfx c' s ->
    stands s t -> In (tk t) [KComma; KPClose] -> expr_fault s (T "E740: Too many arguments for function")
| ef_argname t : stands s t -> tk t = KIdent -> isargname (tv t) = false ->
    expr_fault s (T "E125: Illegal argument: " ++ tv t)
| ef_twice t c b xs e : stands s t -> tk t = KIdent -> sfx c B -> params_to c b xs e -> blank e s -> In (tv t) xs ->
    expr_fault s (T "E853: Duplicate argument name: " ++ tv t)
| ef_comma r p c' : param_ends s -> peek1 s = Some r -> iswhite r = true -> tok_at KComma s p c' ->
    expr_fault s (T "E475: Invalid argument: White space is not allowed before comma")
| ef_paren t c f c1 : stands s t -> sfx c B -> dexpr 9 c f c1 -> blank c1 s -> tk t <> KPOpen ->
    expr_fault s (T "E107: Missing parentheses: lambda").

End Expr.

(** A text that is an expression: it begins at the start, and no target is due by itself. *)
Definition expr_start (B : cursor) (k : bool) (c : cursor) : Prop := k = false /\ c = B.

(** * Arguments of commands *)

Section Cmd.
Context (B : cursor).

(** The lines from [c] to the end of the text at [s], none of them equal to [m]. *)
Inductive lines_without (m : text) : cursor -> cursor -> Prop :=
| lw_end c : is_eof c = true -> lines_without m c c
| lw_line c l p c1 s : spells l c (Cons EOL p c1) -> l <> m -> lines_without m c1 s -> lines_without m c s.

(** Between [c] and [s] are only words that start with a small letter, and no word is at [s]. *)
Inductive no_marker : cursor -> cursor -> Prop :=
| nm_none c s : blank c s -> (forall r, peek1 s = Some r -> iswordc r = false) -> no_marker c s
| nm_word c d r u c1 s : blank c d -> spells (r :: u) d c1 -> some_of iswordc (r :: u) -> islower r = true ->
    no_marker c1 s -> no_marker c s.

(** [target_at v s]: [v] is a target of the text, and [s] is its place: the first character
    of a name, or the last operator. *)
Definition target_at (v : vnode) (s : cursor) : Prop :=
  exists c c', sfx c B /\ dlval c v c' /\ sfx s c /\ vpos v = getpos s.

(** Where an expression ([false]) or a target ([true]) begins in a script: behind the head of
    a command that takes one, behind the depth of :lockvar, behind the sign of an assignment,
    the word of :for and the opening of a backtick expression, and behind the one before it
    in a command that takes several. *)
Definition argument_kinds : list (text * bool) :=
  [ (T "parse_cmd_return", false); (T "parse_cmd_call", false); (T "parse_cmd_unlet", false); (T "parse_cmd_lockvar", false);
    (T "parse_cmd_unlockvar", false); (T "parse_cmd_if", false); (T "parse_cmd_elseif", false); (T "parse_cmd_while", false);
    (T "parse_cmd_eval", false); (T "parse_cmd_throw", false); (T "parse_cmd_echo", false); (T "parse_cmd_echon", false);
    (T "parse_cmd_echomsg", false); (T "parse_cmd_echoerr", false); (T "parse_cmd_execute", false);
    (T "parse_cmd_let", true); (T "parse_cmd_const", true); (T "parse_cmd_for", true); (T "parse_cmd_function", true);
    (T "parse_cmd_delfunction", true) ].
Definition expression_signs : list text :=
  [ T "="; T "+="; T "-="; T "*="; T "/="; T "%="; T ".="; T "..="; T "in"; T "`=" ].
Inductive argument_due : bool -> cursor -> Prop :=
| ar_head neovim P t a b d c ea c' : sfx a B -> head neovim P a b d c ea -> In (P, t) argument_kinds ->
    c' = c \/ blank c c' -> argument_due t c'
| ar_depth neovim P a b d c ea c0 ds c1 : sfx a B -> head neovim P a b d c ea ->
    In P [T "parse_cmd_lockvar"; T "parse_cmd_unlockvar"] -> blank c c0 -> spells ds c0 c1 -> some_of isdigit ds ->
    argument_due false c1
| ar_sign c0 w c' : sfx c0 B -> In w expression_signs -> spells w c0 c' -> argument_due false c'
| ar_next c v c1 c' : sfx c B -> dexpr 1 c v c1 -> blank c1 c' -> argument_due false c'
| ar_next_target c v c1 c' : sfx c B -> dexpr 1 c v c1 \/ dlval c v c1 -> blank c1 c' -> argument_due true c'.

Inductive cmd_fault (s : cursor) : text -> Prop :=
| cf_expr m : expr_fault B argument_due s m -> cmd_fault s m
| cf_pattern p : sfx (Cons (R 92) p s) B -> at_end s -> cmd_fault s (T "E682: Invalid search pattern or delimiter")
| cf_search : peek1 s = Some 92 -> (forall r c', In r (T "/?&") -> ~ spells [92; r] s c') ->
    cmd_fault s (T "E10: \\ should be followed by /, ? or &")
| cf_option c' : spells (T "++") s c' -> (forall t rest o, rest_of s (t ++ rest) -> ~ option_text rest t o) ->
    cmd_fault s (T "E474: Invalid Argument")
| cf_trail r : peek1 s = Some r -> ~ In r (32 :: 9 :: 34 :: T "|") ->
    cmd_fault s (T "E488: Trailing characters: " ++ [r])
| cf_backtick q c v : sfx q B -> spells (T "`=") q c -> dexpr 1 c v s -> peek1 s <> Some (C "`") ->
    cmd_fault s (T "unexpected character: " ++ match peek1 s with Some r => [r] | None => [] end)
| cf_function v : target_at v s -> ~ function_name v -> cmd_fault s (T "Invalid Expression")
| cf_variable p n : target_at (VIdent p n) s -> isvarname n = false ->
    cmd_fault s (T "E461: Illegal variable name: " ++ n)
| cf_lock_item v : target_at v s ->
    match v with VSubscript _ _ _ | VSlice _ _ _ _ | VDot _ _ _ => True | _ => False end ->
    cmd_fault s (T "E996: Cannot lock a list or dict")
| cf_lock_option p n : target_at (VLit LOption p n) s -> cmd_fault s (T "E996: Cannot lock an option")
| cf_lock_env p n : target_at (VLit LEnv p n) s -> cmd_fault s (T "E996: Cannot lock an environment variable")
| cf_lock_reg p n : target_at (VLit LReg p n) s -> cmd_fault s (T "E996: Cannot lock a register")
| cf_param t : stands s t -> tk t = KIdent -> In (tv t) [T "firstline"; T "lastline"] ->
    cmd_fault s (T "E125: Illegal argument: " ++ tv t)
| cf_default t c1 u c2 c xs e : token_at s t c1 -> tp t = getpos s -> tk t = KIdent -> token_at c1 u c2 ->
    tk u <> KEq -> sfx c B -> params_to c true xs e -> blank e s ->
    cmd_fault s (T "E989: Non-default argument follows default argument")
| cf_attribute w c' : spells w s c' -> some_of isalpha w -> ch_in isalpha (peek c') = false ->
    ~ In w [T "range"; T "abort"; T "dict"; T "closure"] -> cmd_fault s (T "unexpected token: " ++ w)
| cf_list t c v c1 ks : stands s t -> sfx c B -> dlval c v c1 -> target v -> blank c1 s ->
    In ks [[KSqClose; KComma; KSemicolon]; [KSqClose]] -> ~ In (tk t) ks ->
    cmd_fault s (T "E475 Invalid argument: " ++ tv t).

End Cmd.

(** * Blocks *)

(** The open blocks of a script, the innermost first: the part of :if before and after
    :else, the part of :try before and after :finally. *)
Inductive blockkind := BkFunction | BkIf | BkElse | BkWhile | BkFor | BkTry | BkFinally.

Section Report.
Context (neovim : bool) (B : cursor).

(** [pending w e ks]: the text up to [e] is a script whose blocks [ks] are not closed yet;
    [w] is the place of the next command. *)
Inductive pending : place -> cursor -> list blockkind -> Prop :=
| pe_top e body : block neovim top_place B e body -> pending top_place e []
| pe_function w e0 ks a b d c ea c0 l c1 c2 c3 rl da c4 at_ c5 e body :
    pending w e0 ks -> gap e0 a -> head neovim (T "parse_cmd_function") a b d c ea ->
    blank c c0 -> dlval c0 l c1 -> function_name l ->
    (forall p s, l = VIdent p s -> plain_name_ok s) ->
    blank c1 c2 -> spells (T "(") c2 c3 -> dfparams false c3 rl da c4 -> fn_params rl da ->
    dattrs (mkAttr false false false false) c4 at_ c5 ->
    block neovim (in_function w) c5 e body -> pending (in_function w) e (BkFunction :: ks)
| pe_if w e0 ks a b d c ea v c1 e body es :
    pending w e0 ks -> gap e0 a -> head neovim (T "parse_cmd_if") a b d c ea -> dexpr 1 c v c1 ->
    if_chain neovim w c1 e body es None -> pending (in_block w) e (BkIf :: ks)
| pe_else w e0 ks a b d c ea v c1 e body es el :
    pending w e0 ks -> gap e0 a -> head neovim (T "parse_cmd_if") a b d c ea -> dexpr 1 c v c1 ->
    if_chain neovim w c1 e body es (Some el) -> pending (in_block w) e (BkElse :: ks)
| pe_while w e0 ks a b d c ea v c1 e body :
    pending w e0 ks -> gap e0 a -> head neovim (T "parse_cmd_while") a b d c ea -> dexpr 1 c v c1 ->
    block neovim (in_loop w) c1 e body -> pending (in_loop w) e (BkWhile :: ks)
| pe_for w e0 ks a b d c ea l ls rs c1 d1 c2 v c3 e body :
    pending w e0 ks -> gap e0 a -> head neovim (T "parse_cmd_for") a b d c ea ->
    dlhs target c l ls rs c1 -> blank c1 d1 -> spells (T "in") d1 c2 -> dexpr 1 c2 v c3 ->
    block neovim (in_loop w) c3 e body -> pending (in_loop w) e (BkFor :: ks)
| pe_try w e0 ks a b d c ea e body cs :
    pending w e0 ks -> gap e0 a -> head neovim (T "parse_cmd_try") a b d c ea ->
    try_chain neovim w c e body cs None -> pending (in_block w) e (BkTry :: ks)
| pe_finally w e0 ks a b d c ea e body cs fi :
    pending w e0 ks -> gap e0 a -> head neovim (T "parse_cmd_try") a b d c ea ->
    try_chain neovim w c e body cs (Some fi) -> pending (in_block w) e (BkFinally :: ks).

(** What a block that is not closed lacks. *)
Inductive missing : blockkind -> text -> Prop :=
| mi_if k : In k [BkIf; BkElse] -> missing k (T "E171: Missing :endif")
| mi_try k : In k [BkTry; BkFinally] -> missing k (T "E600: Missing :endtry")
| mi_while : missing BkWhile (T "E170: Missing :endwhile")
| mi_for : missing BkFor (T "E170: Missing :endfor").

(** [misplaced w ks P m]: a command of the kind [P] cannot stand at the place [w] inside the
    blocks [ks]; [m] is what is said about it. *)
Definition innermost (ks : list blockkind) (k : blockkind) : Prop := hd_error ks = Some k.
Inductive misplaced (w : place) (ks : list blockkind) : text -> text -> Prop :=
| mp_elseif : ~ innermost ks BkIf -> misplaced w ks (T "parse_cmd_elseif") (T "E582: :elseif without :if")
| mp_else : ~ innermost ks BkIf -> misplaced w ks (T "parse_cmd_else") (T "E581: :else without :if")
| mp_endif : ~ innermost ks BkIf -> ~ innermost ks BkElse ->
    misplaced w ks (T "parse_cmd_endif") (T "E580: :endif without :if")
| mp_endwhile : ~ innermost ks BkWhile -> misplaced w ks (T "parse_cmd_endwhile") (T "E588: :endwhile without :while")
| mp_endfor : ~ innermost ks BkFor -> misplaced w ks (T "parse_cmd_endfor") (T "E588: :endfor without :for")
| mp_continue : pl_loop w = false ->
    misplaced w ks (T "parse_cmd_continue") (T "E586: :continue without :while or :for")
| mp_break : pl_loop w = false -> misplaced w ks (T "parse_cmd_break") (T "E587: :break without :while or :for")
| mp_catch : innermost ks BkFinally -> misplaced w ks (T "parse_cmd_catch") (T "E604: :catch after :finally")
| mp_catch_no : ~ innermost ks BkTry -> ~ innermost ks BkFinally ->
    misplaced w ks (T "parse_cmd_catch") (T "E603: :catch without :try")
| mp_finally : ~ innermost ks BkTry -> misplaced w ks (T "parse_cmd_finally") (T "E606: :finally without :try")
| mp_endtry : ~ innermost ks BkTry -> ~ innermost ks BkFinally ->
    misplaced w ks (T "parse_cmd_endtry") (T "E602: :endtry without :try")
| mp_return : pl_fun w = false -> misplaced w ks (T "parse_cmd_return") (T "E133: :return not inside a function")
| mp_endfunction : ks = [] -> misplaced w ks (T "parse_cmd_endfunction") (T "E193: :endfunction not inside a function")
| mp_missing k m : innermost ks k -> missing k m ->
    misplaced w ks (T "parse_cmd_endfunction") (m ++ T ":    ENDFUNCTION").

(** [argument_fault c s P m]: the argument, at [c], of a command of the kind [P] is wrong at [s]. *)
Inductive argument_fault (c s : cursor) : text -> text -> Prop :=
| af_required c0 : blank c c0 -> s = c0 -> (forall r, peek1 s = Some r -> r = C "|" \/ r = 34) ->
    argument_fault c s (T "parse_cmd_call") (T "E471: Argument required")
| af_call v c' : dexpr 1 c v c' -> sfx s c -> vpos v = getpos s -> (forall p f args, v <> VCall p f args) ->
    argument_fault c s (T "parse_cmd_call") (T "Not an function call")
| af_capital c0 p n c' : blank c c0 -> dlval c0 (VIdent p n) c' -> sfx s c0 -> p = getpos s -> ~ plain_name_ok n ->
    argument_fault c s (T "parse_cmd_function")
      (T "E128: Function name must start with a capital or contain a colon: " ++ n)
| af_marker l ls rs c1 d1 c2 : dlhs target c l ls rs c1 -> blank c1 d1 -> spells (T "=<<") d1 c2 ->
    no_marker c2 s ->
    argument_fault c s (T "parse_cmd_let") (T "E172: Missing marker")
| af_end l ls rs c1 d1 c2 ws m c3 cms c4 : dlhs target c l ls rs c1 -> blank c1 d1 -> spells (T "=<<") d1 c2 ->
    dhwords c2 ws m c3 -> dtrail c3 cms c4 -> lines_without m c4 s ->
    argument_fault c s (T "parse_cmd_let") (T "E990: Missing end marker '" ++ m ++ T "'")
| af_in l ls rs c1 : dlhs target c l ls rs c1 -> blank c1 s ->
    (forall c', spells (T "in") s c' -> ch_in isalpha (peek c') = true) ->
    argument_fault c s (T "parse_cmd_for") (T "Missing ""in"" after :for")
| af_window : s = c -> at_end s -> argument_fault c s (T "parse_wincmd") (T "E471: Argument required")
| af_key r c1 : r = C "g" \/ r = 7 -> spells [r] c c1 ->
    (s = c1 /\ at_end s) \/ (exists k, spells [k] c1 s /\ iswhite k = true) ->
    argument_fault c s (T "parse_wincmd") (T "E474: Invalid Argument")
| af_more u c1 z : window_key u -> spells u c c1 -> blank c1 s -> rest_of s z -> ~ ends_command z ->
    argument_fault c s (T "parse_wincmd") (T "E474: Invalid Argument").

(** A command line of the script, behind [e], whose command is at [s]. *)
Definition command_at (e s : cursor) : Prop :=
  exists a h lead rest, gap e a /\ spells lead a s /\ rest_of s rest /\ lead_text h lead rest.

(** [report s m]: the message [m] at [s] is true of the text. *)
Inductive report (s : cursor) : text -> Prop :=
| rp_cmd m : cmd_fault B s m -> report s m
| rp_unknown w e ks line : pending w e ks -> command_at e s -> rest_of s line ->
    (forall u x, ~ resolves neovim line u x) -> report s (T "E492: Not an editor command: " ++ line)
| rp_bang w e ks u x b1 c' : pending w e ks -> command_at e s -> spells u s b1 -> named neovim u x -> spells (T "!") b1 c' ->
    ~ In (c_name x) [T "substitute"; T "smagic"; T "snomagic"] ->
    flag (T "BANG") x = false -> flag (T "USERCMD") x = false -> report s (T "E477: No ! allowed")
| rp_write w e ks u x b1 d : pending w e ks -> command_at e s -> spells u s b1 -> named neovim u x ->
    In (c_name x) [T "write"; T "update"] -> same_line b1 d -> peek1 d = Some (C ">") ->
    (forall c', ~ spells (T ">>") d c') -> report s (T "E494: Use w or w>>")
| rp_misplaced w e ks a d c ea P m : pending w e ks -> gap e a -> head neovim P a s d c ea -> misplaced w ks P m ->
    report s m
| rp_argument w e ks a b d c ea P m : pending w e ks -> gap e a -> head neovim P a b d c ea ->
    argument_fault c s P m -> report s m
| rp_open w e ks : pending w e (BkFunction :: ks) -> gap e s -> is_eof s = true ->
    report s (T "E126: Missing :endfunction:    TOPLEVEL")
| rp_missing w e ks k m : pending w e (k :: ks) -> gap e s -> is_eof s = true -> missing k m ->
    report s (m ++ T ":    TOPLEVEL").

End Report.
