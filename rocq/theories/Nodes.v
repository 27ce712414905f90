(** Specification vocabulary for trees: the nodes of an AST, and source text at a place. *)
From Verif Require Import Base Utf8 CharClass Reader Vnode Token Ast Api Places.

(** The nodes stored in the fields of a node (ast/node.go). *)
Definition on (o : option node) : list node := match o with Some n => [n] | None => [] end.
Definition fields (n : node) : list node :=
  match n with
  | NFile _ b => b
  | NComment _ _ | NExcmd _ _ _ | NEndFunction _ _ | NEndIf _ _ | NEndWhile _ _ | NEndFor _ _
  | NContinue _ _ | NBreak _ _ | NEndTry _ _ | NEchohl _ _ _ | NBasicLit _ _ _ | NCurlyLit _ _
  | NIdent _ _ => []
  | NFunction _ _ b nm ps ds _ e => b ++ on nm ++ ps ++ ds ++ on e
  | NDelFunction _ _ nm => on nm
  | NReturn _ _ r => on r
  | NExCall _ _ f => on f
  | NLet _ _ _ l ls rs r => on l ++ ls ++ on rs ++ on r
  | NUnLet _ _ ls | NLockVar _ _ _ ls | NUnLockVar _ _ _ ls => ls
  | NIf _ _ b c eis el en => b ++ on c ++ eis ++ on el ++ on en
  | NElseIf _ _ b c => b ++ on c
  | NElse _ _ b => b
  | NWhile _ _ b c en => b ++ on c ++ on en
  | NFor _ _ b l ls rs r en => b ++ on l ++ ls ++ on rs ++ on r ++ on en
  | NTry _ _ b cs fi en => b ++ cs ++ on fi ++ on en
  | NCatch _ _ b _ => b
  | NFinally _ _ b => b
  | NThrow _ _ x | NEval _ _ x => on x
  | NEchoCmd _ _ _ xs | NExecute _ _ xs => xs
  | NTernary _ c l r => on c ++ on l ++ on r
  | NBinary l _ _ r => on l ++ on r
  | NUnary _ _ x => on x
  | NSubscript _ l r => on l ++ on r
  | NSlice x _ lo hi => on x ++ on lo ++ on hi
  | NMethod l m _ args => on l ++ on m ++ args
  | NCall f _ args => on f ++ args
  | NDot l _ r => on l ++ on r
  | NList _ vs => vs
  | NDict _ kvs => flat_map (fun kv => on (fst kv) ++ on (snd kv)) kvs
  | NCurlyName _ ps => ps
  | NCurlyExpr _ x => on x
  | NLambda _ ps x => ps ++ on x
  | NParen _ x => on x
  | NHeredoc _ fl _ b => fl ++ b
  end.

(** [within root n]: [n] is [root] or occurs in it at any depth. *)
Inductive within (root : node) : node -> Prop :=
| wi_root : within root root
| wi_field m n : within root m -> In n (fields m) -> within root n.

(** [inside root loop fn n]: [n] occurs in [root]; [loop] tells that a While or For node is
    among its ancestors, [fn] that a Function node is. *)
Definition is_loop (n : node) : bool := match n with NWhile _ _ _ _ _ | NFor _ _ _ _ _ _ _ _ => true | _ => false end.
Definition is_func (n : node) : bool := match n with NFunction _ _ _ _ _ _ _ _ => true | _ => false end.
Inductive inside (root : node) : bool -> bool -> node -> Prop :=
| in_root : inside root false false root
| in_field lp fn m n : inside root lp fn m -> In n (fields m) ->
    inside root (lp || is_loop m) (fn || is_func m) n.

(** The positions stored in a node: its own and those of its ExArg. *)
Definition op (o : option apos) : list apos := match o with Some p => [p] | None => [] end.
Definition positions (n : node) : list apos :=
  npos n :: match nea n with
            | Some e => op (ae_linepos e) ++ op (ae_cmdpos e) ++ op (ae_argpos e)
            | None => []
            end.

(** * Source text *)

(** The characters and line ends of a source, in the order of its logical lines, with line
    and column. *)
Definition source_cells (bs : list N) (cells : list (cell * N * N)) : Prop :=
  exists ts ls, seen_lines bs ts /\ logical 1 ts ls /\ cells = flat_map logical_cells ls.

Definition cell_of (x : cell * N * N) : cell := fst (fst x).
(** The place of the first cell of a list is line [n], column [c]. *)
Definition starts_at (cells : list (cell * N * N)) (n c : N) : Prop :=
  match cells with (_, n', c') :: _ => n' = n /\ c' = c | [] => True end.

(** [text_at cells n c s post]: the characters [s] stand at line [n], column [c], without a
    line end among them, and [post] is what follows. *)
Definition text_at (cells : list (cell * N * N)) (n c : N) (s : text) (post : list (cell * N * N)) : Prop :=
  exists pre mid, cells = pre ++ mid ++ post /\ map cell_of mid = map R s /\ starts_at (mid ++ post) n c.

(** The same, with line ends rendered as line feeds. *)
Definition cell_char (x : cell) : N := match x with EOL => 10 | R r => r end.
Definition run_at (cells : list (cell * N * N)) (n c : N) (s : text) (post : list (cell * N * N)) : Prop :=
  exists pre mid, cells = pre ++ mid ++ post /\ map (fun x => cell_char (cell_of x)) mid = s /\
    starts_at (mid ++ post) n c.

(** At a line end or at the end of the source. *)
Definition line_end (cells : list (cell * N * N)) : Prop :=
  match cells with [] => True | x :: _ => cell_of x = EOL end.

(** * Results of the two entry points *)

(** [accepted bs fails file root]: [root] is the AST returned for the bytes [bs]. *)
Definition accepted (bs : list N) (fails : bool) (file : list N) (root : node) : Prop :=
  (exists opt, ParseFile (mkSource bs fails) file opt = Returned root) \/
  (file = [] /\ ParseExpr (mkSource bs fails) = Returned (Some root)).

(** * Types of the fields (ast/node.go) *)

Definition stmts (l : list node) : Prop := Forall (fun n => is_stmt n = true) l.
Definition exprs (l : list node) : Prop := Forall (fun n => is_expr n = true) l.
Definition idents (l : list node) : Prop := Forall (fun n => exists p s, n = NIdent p s) l.
(** A field of type Expr that is not nil, and one that may be. *)
Definition expr (o : option node) : Prop := exists n, o = Some n /\ is_expr n = true.
Definition opt_expr (o : option node) : Prop := o = None \/ expr o.

(** The fields of a node hold what their Go types promise; the pointers and interfaces that
    are not documented as optional are not nil; blocks are closed. *)
Definition typed (n : node) : Prop :=
  match n with
  | NFile _ b => stmts b
  | NFunction _ _ b nm ps ds _ en =>
    stmts b /\ expr nm /\ idents ps /\ exprs ds /\ exists p e, en = Some (NEndFunction p e)
  | NDelFunction _ _ nm => expr nm
  | NReturn _ _ r => opt_expr r
  | NExCall _ _ f => exists g p args, f = Some (NCall g p args)
  | NLet _ _ _ l ls rs r => opt_expr l /\ exprs ls /\ opt_expr rs /\ expr r
  | NUnLet _ _ ls | NLockVar _ _ _ ls | NUnLockVar _ _ _ ls => exprs ls
  | NIf _ _ b c eis el en =>
    stmts b /\ expr c /\ Forall (fun n => exists p e b c, n = NElseIf p e b c) eis /\
    (el = None \/ exists p e b, el = Some (NElse p e b)) /\ exists p e, en = Some (NEndIf p e)
  | NElseIf _ _ b c => stmts b /\ expr c
  | NElse _ _ b | NCatch _ _ b _ | NFinally _ _ b => stmts b
  | NWhile _ _ b c en => stmts b /\ expr c /\ exists p e, en = Some (NEndWhile p e)
  | NFor _ _ b l ls rs r en =>
    stmts b /\ opt_expr l /\ exprs ls /\ opt_expr rs /\ expr r /\ exists p e, en = Some (NEndFor p e)
  | NTry _ _ b cs fi en =>
    stmts b /\ Forall (fun n => exists p e b s, n = NCatch p e b s) cs /\
    (fi = None \/ exists p e b, fi = Some (NFinally p e b)) /\ exists p e, en = Some (NEndTry p e)
  | NThrow _ _ x | NEval _ _ x => expr x
  | NEchoCmd _ _ _ xs | NExecute _ _ xs => exprs xs
  | NTernary _ c l r => expr c /\ expr l /\ expr r
  | NBinary l _ _ r | NSubscript _ l r => expr l /\ expr r
  | NUnary _ _ x => expr x
  | NSlice x _ lo hi => expr x /\ opt_expr lo /\ opt_expr hi
  | NMethod l m _ args => expr l /\ expr m /\ exprs args
  | NCall f _ args => expr f /\ exprs args
  | NDot l _ r => expr l /\ exists p s, r = Some (NIdent p s)
  | NList _ vs => exprs vs
  | NDict _ kvs => Forall (fun kv => expr (fst kv) /\ expr (snd kv)) kvs
  | NCurlyName _ ps =>
    Forall (fun n => (exists p s, n = NCurlyLit p s) \/ (exists p x, n = NCurlyExpr p x)) ps
  | NCurlyExpr _ x => expr x
  | NLambda _ ps x => idents ps /\ expr x
  | NParen _ x => expr x
  | NHeredoc _ fl _ b => exprs fl /\ exprs b
  | NComment _ _ | NExcmd _ _ _ | NEndFunction _ _ | NEndIf _ _ | NEndWhile _ _ | NEndFor _ _
  | NContinue _ _ | NBreak _ _ | NEndTry _ _ | NEchohl _ _ _ | NBasicLit _ _ _ | NCurlyLit _ _
  | NIdent _ _ => True
  end.

(** The statements of the block of a node. *)
Definition block_of (n : node) : list node :=
  match n with
  | NFile _ b | NFunction _ _ b _ _ _ _ _ | NIf _ _ b _ _ _ _ | NElseIf _ _ b _ | NElse _ _ b
  | NWhile _ _ b _ _ | NFor _ _ b _ _ _ _ _ | NTry _ _ b _ _ _ | NCatch _ _ b _ | NFinally _ _ b => b
  | _ => []
  end.
(** The commands that continue or close a block. *)
Definition is_part (n : node) : bool :=
  match n with
  | NEndFunction _ _ | NElseIf _ _ _ _ | NElse _ _ _ | NEndIf _ _ | NEndWhile _ _ | NEndFor _ _
  | NCatch _ _ _ _ | NFinally _ _ _ | NEndTry _ _ => true
  | _ => false
  end.

(** * Source order *)

(** The commands and comments of a node: the node and those of its blocks, in preorder. *)
Definition oo (f : node -> list node) (o : option node) : list node :=
  match o with Some x => f x | None => [] end.
Fixpoint order (n : node) : list node :=
  n :: match n with
       | NFile _ b | NElseIf _ _ b _ | NElse _ _ b | NCatch _ _ b _ | NFinally _ _ b => flat_map order b
       | NFunction _ _ b _ _ _ _ en | NWhile _ _ b _ en | NFor _ _ b _ _ _ _ en => flat_map order b ++ oo order en
       | NIf _ _ b _ eis el en => flat_map order b ++ flat_map order eis ++ oo order el ++ oo order en
       | NTry _ _ b cs fi en => flat_map order b ++ flat_map order cs ++ oo order fi ++ oo order en
       | _ => []
       end.
Definition earlier (p q : apos) : Prop :=
  ap_line p < ap_line q \/ (ap_line p = ap_line q /\ ap_column p < ap_column q).
Definition is_comment (n : node) : Prop := exists p s, n = NComment p s.
(** A line that has only modifiers or a range. *)
Definition no_command (n : node) : Prop := exists p s e, n = NExcmd p s e /\ ae_cmd e = None.
Definition is_heredoc_let (n : node) : Prop :=
  exists p e l ls rs r, n = NLet p e (T "=<<") l ls rs (Some r) /\ exists q fl m b, r = NHeredoc q fl m b.
(** [in_order x y]: [x] starts before [y]. Two exceptions: a line without a command has the
    position of the comment behind it, and the comment on the first line of a here-document
    comes in front of its :let. *)
Definition in_order (x y : node) : Prop :=
  earlier (npos x) (npos y) \/
  (no_command x /\ is_comment y /\ npos x = npos y) \/
  (is_comment x /\ is_heredoc_let y /\ earlier (npos y) (npos x)).

(** * Here-documents *)

Definition blanks (s : text) : Prop := forall r, In r s -> r = 32 \/ r = 9.
(** The words between "=<<" and the end of the command: flags and the marker. *)
Inductive marker_words : text -> list node -> text -> text -> Prop :=
| mw_marker ws m rest : blanks ws -> m <> [] -> marker_words (ws ++ m ++ rest) [] m rest
| mw_flag ws p w t fl m rest : blanks ws -> w <> [] -> marker_words t fl m rest ->
    marker_words (ws ++ w ++ t) (NBasicLit p TSTRING w :: fl) m rest.
(** The lines in front of the first one equal to [m]; [post] is what follows the marker. *)
Inductive marker_lines (m : text) : list (cell * N * N) -> list node -> list (cell * N * N) -> Prop :=
| ml_end mid post : map cell_of mid = map R m -> line_end post -> marker_lines m (mid ++ post) [] post
| ml_line mid s p n c rest body post : map cell_of mid = map R s -> s <> m ->
    starts_at (mid ++ (EOL, n, c) :: rest) (ap_line p) (ap_column p) -> marker_lines m rest body post ->
    marker_lines m (mid ++ (EOL, n, c) :: rest) (NBasicLit p TSTRING s :: body) post.
(** The text of a here-document whose first line has the flags [fl] and the marker [m],
    possibly a comment, and ends with [x]. *)
Definition heredoc_text (cells : list (cell * N * N)) (x : cell) (fl : list node) (m : text) (body : list node) : Prop :=
  exists pre mid t ws cm n c rest post,
    cells = pre ++ mid ++ (x, n, c) :: rest /\ map cell_of mid = map R (T "=<<" ++ t) /\
    marker_words t fl m (ws ++ cm) /\ blanks ws /\ (cm = [] \/ exists s, cm = T """" ++ s) /\
    marker_lines m rest body post.

(** * Operators *)

(** ":help expression-syntax": the level of a binary operator ... *)
Definition binary_level (t : gtok) : option N :=
  match t with
  | TOROR => Some 2 | TANDAND => Some 3
  | TEQEQ | TEQEQCI | TEQEQCS | TNEQ | TNEQCI | TNEQCS | TGT | TGTCI | TGTCS
  | TGTEQ | TGTEQCI | TGTEQCS | TLT | TLTCI | TLTCS | TLTEQ | TLTEQCI | TLTEQCS
  | TMATCH | TMATCHCI | TMATCHCS | TNOMATCH | TNOMATCHCI | TNOMATCHCS
  | TIS | TISCI | TISCS | TISNOT | TISNOTCI | TISNOTCS => Some 4
  | TPLUS | TMINUS | TDOT => Some 5
  | TSTAR | TSLASH | TPERCENT => Some 6
  | _ => None
  end.
(** ... and of an expression (0 for a node that is none). *)
Definition level (n : node) : N :=
  match n with
  | NTernary _ _ _ _ => 1
  | NBinary _ _ t _ => match binary_level t with Some l => l | None => 0 end
  | NUnary _ _ _ => 7
  | NSubscript _ _ _ | NSlice _ _ _ _ | NMethod _ _ _ _ | NCall _ _ _ | NDot _ _ _ => 8
  | NBasicLit _ _ _ | NList _ _ | NDict _ _ | NCurlyName _ _ | NIdent _ _ | NLambda _ _ _
  | NParen _ _ => 9
  | _ => 0
  end.
Definition of_level (l : N) (o : option node) : Prop := exists n, o = Some n /\ l <= level n.
(** The operands of an operator have the levels the grammar requires. *)
Definition well_nested (n : node) : Prop :=
  match n with
  | NTernary _ c l r => of_level 2 c /\ of_level 1 l /\ of_level 1 r
  | NBinary l _ t r =>
    match binary_level t with
    | Some 4 => of_level 5 l /\ of_level 5 r
    | Some k => of_level k l /\ of_level (k + 1) r
    | None => False
    end
  | NUnary _ t x => In t [TNOT; TMINUS; TPLUS] /\ of_level 7 x
  | NSubscript _ l i => of_level 8 l /\ of_level 1 i
  | NSlice x _ _ _ => of_level 8 x
  | NMethod l m _ _ => of_level 8 l /\ of_level 9 m
  | NCall f _ _ => of_level 8 f
  | NDot l _ _ => of_level 8 l
  | _ => True
  end.

(** * Parameters *)

Definition ident_name (n : node) : text := match n with NIdent _ s => s | _ => [] end.
(** A valid name of an argument: a letter or underscore, then letters, digits, underscores. *)
Definition arg_name (s : text) : Prop :=
  exists r w, s = r :: w /\ (isalpha r = true \/ r = C "_") /\
    Forall (fun x => isalpha x = true \/ isdigit x = true \/ x = C "_") w.
(** Distinct valid names other than the reserved ones, then possibly "...". *)
Definition params_ok (reserved : list text) (ps : list text) : Prop :=
  exists names rest, ps = names ++ rest /\ (rest = [] \/ rest = [T "..."]) /\
    Forall arg_name names /\ NoDup names /\ Forall (fun s => ~ In s reserved) names.

(** * Targets and names *)

(** A variable name: a scope letter and a colon, or a name, or both; a name may contain #. *)
Definition var_name (s : text) : Prop :=
  let body := fun s => exists r w, s = r :: w /\ (isalpha r = true \/ r = C "_") /\
    Forall (fun x => isalpha x = true \/ isdigit x = true \/ x = C "_" \/ x = C "#") w in
  let scope := fun r => In r (T "vgslabwt") in
  body s \/ (exists r b, s = r :: C ":" :: b /\ scope r /\ (b = [] \/ body b)).
Definition lit_name (k : gtok) : Prop := In k [TOPTION; TENV; TREG].
(** What can be assigned to. *)
Definition assignable (n : node) : Prop :=
  match n with
  | NIdent _ s => var_name s
  | NCurlyName _ _ | NSubscript _ _ _ | NSlice _ _ _ _ | NDot _ _ _ => True
  | NBasicLit _ k _ => lit_name k
  | _ => False
  end.
(** The left side of :let and :for: one target, or a list of targets with possibly a rest. *)
Definition left_side (ok : node -> Prop) (l : option node) (ls : list node) (rs : option node) : Prop :=
  (exists n, l = Some n /\ ok n /\ ls = [] /\ rs = None) \/
  (l = None /\ ls <> [] /\ Forall assignable ls /\ (rs = None \/ exists n, rs = Some n /\ assignable n)).
(** What can name a function. *)
Definition func_name (n : node) : Prop :=
  match n with
  | NIdent _ _ | NCurlyName _ _ | NSubscript _ _ _ | NDot _ _ _ => True
  | NBasicLit _ k _ => lit_name k
  | _ => False
  end.
(** A plain name of a new function starts with a capital, underscore or "<", or contains ":"
    or "#". *)
Definition new_func_name (s : text) : Prop :=
  (exists r t, s = r :: t /\ (r = C "<" \/ r = C "_" \/ isupper r = true)) \/ In (C ":") s \/ In (C "#") s.
Definition assignment_op (s : text) : Prop :=
  In s [T "="; T "+="; T "-="; T "*="; T "/="; T "%="; T ".="; T "..="].

Definition is_heredoc (o : option node) : Prop := exists p f m b, o = Some (NHeredoc p f m b).

Definition command_shape (n : node) : Prop :=
  match n with
  | NExCall _ _ f => exists g p args, f = Some (NCall g p args)
  | NLet _ _ op l ls rs r =>
    left_side assignable l ls rs /\
    ((assignment_op op /\ ~ is_heredoc r) \/ (op = T "=<<" /\ is_heredoc r))
  | NFor _ _ _ l ls rs _ _ => left_side assignable l ls rs
  | NUnLet _ _ ls | NLockVar _ _ _ ls | NUnLockVar _ _ _ ls =>
    exists n rest, ls = n :: rest /\ Forall assignable rest
  | NFunction _ _ _ nm _ _ _ _ =>
    exists n, nm = Some n /\ func_name n /\ (forall p s, n = NIdent p s -> new_func_name s)
  | NDelFunction _ _ nm => exists n, nm = Some n /\ func_name n
  | _ => True
  end.

(** * Arguments and parameters of nodes *)

Definition few_args (n : node) : Prop :=
  match n with
  | NCall _ _ args | NMethod _ _ _ args => (length args <= 20)%nat
  | _ => True
  end.
Definition params_good (n : node) : Prop :=
  match n with
  | NLambda _ ps _ => params_ok [] (map ident_name ps)
  | NFunction _ _ _ _ ps ds _ _ =>
    params_ok [T "firstline"; T "lastline"] (map ident_name ps) /\
    exists names rest, map ident_name ps = names ++ rest /\ (rest = [] \/ rest = [T "..."]) /\
      Forall arg_name names /\ (length ds <= length names)%nat
  | _ => True
  end.

(** * Tokens at the positions of nodes *)

(** The spellings of an operator. *)
Definition op_text (t : gtok) : list text :=
  match t with
  | TOROR => [T "||"] | TANDAND => [T "&&"] | TNOT => [T "!"]
  | TEQEQ => [T "=="] | TEQEQCI => [T "==?"] | TEQEQCS => [T "==#"]
  | TNEQ => [T "!="] | TNEQCI => [T "!=?"] | TNEQCS => [T "!=#"]
  | TGT => [T ">"] | TGTCI => [T ">?"] | TGTCS => [T ">#"]
  | TGTEQ => [T ">="] | TGTEQCI => [T ">=?"] | TGTEQCS => [T ">=#"]
  | TLT => [T "<"] | TLTCI => [T "<?"] | TLTCS => [T "<#"]
  | TLTEQ => [T "<="] | TLTEQCI => [T "<=?"] | TLTEQCS => [T "<=#"]
  | TMATCH => [T "=~"] | TMATCHCI => [T "=~?"] | TMATCHCS => [T "=~#"]
  | TNOMATCH => [T "!~"] | TNOMATCHCI => [T "!~?"] | TNOMATCHCS => [T "!~#"]
  | TIS => [T "is"] | TISCI => [T "is?"] | TISCS => [T "is#"]
  | TISNOT => [T "isnot"] | TISNOTCI => [T "isnot?"] | TISNOTCS => [T "isnot#"]
  | TPLUS => [T "+"] | TMINUS => [T "-"] | TDOT => [T "."; T ".."]
  | TSTAR => [T "*"] | TSLASH => [T "/"] | TPERCENT => [T "%"]
  | _ => []
  end.
(** What stands at the position of an operator or bracket node. *)
Definition mark (n : node) : list text :=
  match n with
  | NTernary _ _ _ _ => [T "?"]
  | NBinary _ _ t _ | NUnary _ t _ => op_text t
  | NSubscript _ _ _ | NSlice _ _ _ _ | NList _ _ => [T "["]
  | NMethod _ _ _ _ | NCall _ _ _ | NParen _ _ => [T "("]
  | NDot _ _ _ => [T "."]
  | NDict _ _ | NLambda _ _ _ => [T "{"; T "#{"]
  | _ => []
  end.
(** Nodes with a mark. *)
Definition has_mark (n : node) : Prop :=
  match n with
  | NTernary _ _ _ _ | NBinary _ _ _ _ | NUnary _ _ _ | NSubscript _ _ _ | NSlice _ _ _ _ | NList _ _
  | NMethod _ _ _ _ | NCall _ _ _ | NParen _ _ | NDot _ _ _ | NDict _ _ | NLambda _ _ _ => True
  | _ => False
  end.

(** * Commands *)

(** The commands that give a node its type. *)
Definition command_names (n : node) : list text :=
  match n with
  | NFunction _ _ _ _ _ _ _ _ => [T "function"]
  | NEndFunction _ _ => [T "endfunction"]
  | NDelFunction _ _ _ => [T "delfunction"]
  | NReturn _ _ _ => [T "return"]
  | NExCall _ _ _ => [T "call"]
  | NLet _ _ _ _ _ _ _ => [T "let"; T "const"]
  | NUnLet _ _ _ => [T "unlet"]
  | NLockVar _ _ _ _ => [T "lockvar"]
  | NUnLockVar _ _ _ _ => [T "unlockvar"]
  | NIf _ _ _ _ _ _ _ => [T "if"]
  | NElseIf _ _ _ _ => [T "elseif"]
  | NElse _ _ _ => [T "else"]
  | NEndIf _ _ => [T "endif"]
  | NWhile _ _ _ _ _ => [T "while"]
  | NEndWhile _ _ => [T "endwhile"]
  | NFor _ _ _ _ _ _ _ _ => [T "for"]
  | NEndFor _ _ => [T "endfor"]
  | NContinue _ _ => [T "continue"]
  | NBreak _ _ => [T "break"]
  | NTry _ _ _ _ _ _ => [T "try"]
  | NCatch _ _ _ _ => [T "catch"]
  | NFinally _ _ _ => [T "finally"]
  | NEndTry _ _ => [T "endtry"]
  | NThrow _ _ _ => [T "throw"]
  | NEval _ _ _ => [T "eval"]
  | NEchoCmd _ nm _ _ => if existsb (text_eqb nm) [T "echo"; T "echon"; T "echomsg"; T "echoerr"] then [nm] else []
  | NEchohl _ _ _ => [T "echohl"]
  | NExecute _ _ _ => [T "execute"]
  | _ => []
  end.
(** Commands whose node is never an Excmd. *)
Definition structured_commands : list text :=
  [ T "endfunction"; T "delfunction"; T "return"; T "call"; T "unlet"; T "lockvar"; T "unlockvar";
    T "if"; T "elseif"; T "else"; T "endif"; T "while"; T "endwhile"; T "for"; T "endfor"; T "continue";
    T "break"; T "try"; T "catch"; T "finally"; T "endtry"; T "throw"; T "eval"; T "echo"; T "echon";
    T "echomsg"; T "echoerr"; T "echohl"; T "execute" ].
(** [s] is a way to write the name of the command [x]: an abbreviation of at least the
    minimal length of a builtin command, the name of a user command, or "s" for :substitute. *)
Inductive names_command : text -> cmd -> Prop :=
| nc_short s x r : s <> [] -> c_name x = s ++ r -> c_minlen x <= N.of_nat (length s) -> names_command s x
| nc_user r s x : 65 <= r <= 90 -> c_name x = r :: s -> names_command (r :: s) x
| nc_s x : c_name x = T "substitute" -> names_command (T "s") x.
(** The command [x] belongs to the node [n]. *)
Definition command_of (n : node) (x : cmd) : Prop :=
  match n with
  | NExcmd _ _ _ => ~ In (c_name x) structured_commands
  | _ => In (c_name x) (command_names n)
  end.
