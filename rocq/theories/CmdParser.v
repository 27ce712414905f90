(** VimLParser: ex command lines, blocks, the command table. *)
From Verif Require Import Base CharClass Reader Vnode Tokenizer ExprParser CmdTable.

(** * Helpers of go/vimlfunc.go *)

Fixpoint digits_val (acc : N) (s : text) : N :=
  match s with [] => acc | c :: t => digits_val (acc * 10 + (c - C "0")) t end.

(** go/vimlfunc.go:141-147  viml_str2nr(s, 10) on a non-empty string of digits:
    strconv.ParseInt with 32 bits fails above 2147483647 and the error value is
    passed to panic. *)
Definition str2nr (s : text) : outcome Z :=
  let n := digits_val 0 s in
  if n <=? 2147483647 then Ok (Z.of_N n) else Panic (PStr2nr s).

(** go/vimlfunc.go:107-114  viml_join(lines, "\n"). *)
Fixpoint join_lines (ls : list text) : text :=
  match ls with
  | [] => []
  | [l] => l
  | l :: t => l ++ 10 :: join_lines t
  end.

(** * The context stack *)

(** An open block: one element of VimLParser.context (go/type.go:111). The Go code
    keeps the node itself on the stack and appends it to the body of its parent when
    it is opened; here the node is built and attached when the block is closed, with
    the same result because only the innermost block grows. [body] is in source
    order. *)
Inductive fkind :=
| FTop
| FFunction (left : vnode) (rlist default_args : list vnode) (attr : funcattr)
| FIf (cond : vnode) (elseif : list vnode) (else_ : option vnode)
| FElseif (cond : vnode)
| FElse
| FWhile (cond : vnode)
| FFor (left : option vnode) (list_ : list vnode) (rest : option vnode) (right : vnode)
| FTry (catch : list vnode) (finally : option vnode)
| FCatch (pattern : text)
| FFinally.

Record frame := mkFrame { f_kind : fkind; f_pos : pos; f_ea : exarg; f_body : list vnode }.

(** Parser state (go/type.go:108-115): reader, context (innermost block first),
    find_command_cache. The current ExArg is passed separately. *)
Record pstate := mkSt { cur : cursor; ctx : list frame; cache : list (text * option cmd) }.

Definition with_cur (c : cursor) (st : pstate) : pstate := mkSt c (ctx st) (cache st).
Definition with_ctx (x : list frame) (st : pstate) : pstate := mkSt (cur st) x (cache st).

(** self.context[0]; an empty context is an index panic in Go. *)
Definition top_frame (st : pstate) : outcome frame :=
  match ctx st with f :: _ => Ok f | [] => Panic PIndex end.

Definition add_body (n : vnode) (f : frame) : frame :=
  mkFrame (f_kind f) (f_pos f) (f_ea f) (f_body f ++ [n]).

(** go/vimlparser.go:361-363  add_node. *)
Definition add_node (n : vnode) (st : pstate) : outcome pstate :=
  match ctx st with
  | f :: r => Ok (with_ctx (add_body n f :: r) st)
  | [] => Panic PIndex
  end.

(** go/type.go:117-119  push_context. *)
Definition push_context (k : fkind) (p : pos) (e : exarg) (st : pstate) : pstate :=
  with_ctx (mkFrame k p e [] :: ctx st) st.

Definition is_if_part (k : fkind) : bool :=
  match k with FIf _ _ _ | FElseif _ | FElse => true | _ => false end.
Definition is_try_part (k : fkind) : bool :=
  match k with FTry _ _ | FCatch _ | FFinally => true | _ => false end.
Definition is_if (k : fkind) : bool := match k with FIf _ _ _ => true | _ => false end.
Definition is_try (k : fkind) : bool := match k with FTry _ _ => true | _ => false end.
Definition is_function (k : fkind) : bool := match k with FFunction _ _ _ _ => true | _ => false end.
Definition is_while (k : fkind) : bool := match k with FWhile _ => true | _ => false end.
Definition is_for (k : fkind) : bool := match k with FFor _ _ _ _ => true | _ => false end.
Definition is_loop (k : fkind) : bool := is_while k || is_for k.

(** go/vimlparser.go:365-393  check_missing_end*, in the order used by parse and
    parse_cmd_endfunction. *)
Definition check_missing_if_try_loops (ends : text) (p : pos) (f : frame) : outcome unit :=
  if is_if_part (f_kind f) then raise (T "E171: Missing :endif:    " ++ ends) p
  else if is_try_part (f_kind f) then raise (T "E600: Missing :endtry:    " ++ ends) p
  else if is_while (f_kind f) then raise (T "E170: Missing :endwhile:    " ++ ends) p
  else if is_for (f_kind f) then raise (T "E170: Missing :endfor:    " ++ ends) p
  else Ok tt.

(** Closing an :elseif, :else, :catch or :finally part: its node goes into the field
    of the enclosing :if or :try (go/vimlparser.go:1552, 1567, 1581, 1677, 1695, 1709).
    The other cases do not occur (see [Context]). *)
Definition pop_part (st : pstate) : outcome pstate :=
  match ctx st with
  | f :: g :: r =>
    match f_kind f, f_kind g with
    | FElseif c, FIf cond es el =>
      Ok (with_ctx (mkFrame (FIf cond (es ++ [VElseif (f_pos f) (f_ea f) (f_body f) c]) el)
                            (f_pos g) (f_ea g) (f_body g) :: r) st)
    | FElse, FIf cond es _ =>
      Ok (with_ctx (mkFrame (FIf cond es (Some (VElse (f_pos f) (f_ea f) (f_body f))))
                            (f_pos g) (f_ea g) (f_body g) :: r) st)
    | FCatch pat, FTry cs fi =>
      Ok (with_ctx (mkFrame (FTry (cs ++ [VCatch (f_pos f) (f_ea f) (f_body f) pat]) fi)
                            (f_pos g) (f_ea g) (f_body g) :: r) st)
    | FFinally, FTry cs _ =>
      Ok (with_ctx (mkFrame (FTry cs (Some (VFinally (f_pos f) (f_ea f) (f_body f))))
                            (f_pos g) (f_ea g) (f_body g) :: r) st)
    | _, _ => Panic PNil
    end
  | _ => Panic PIndex
  end.

(** The finished node of a block whose end command has been read ([e] is the node of
    the end command). *)
Definition close_frame (f : frame) (e : vnode) : option vnode :=
  match f_kind f with
  | FFunction l rl da at_ => Some (VFunction (f_pos f) (f_ea f) (f_body f) l rl da at_ (Some e))
  | FIf c es el => Some (VIf (f_pos f) (f_ea f) (f_body f) c es el (Some e))
  | FWhile c => Some (VWhile (f_pos f) (f_ea f) (f_body f) c (Some e))
  | FFor l ls rs r => Some (VFor (f_pos f) (f_ea f) (f_body f) l ls rs r (Some e))
  | FTry cs fi => Some (VTry (f_pos f) (f_ea f) (f_body f) cs fi (Some e))
  | _ => None
  end.

(** self.context[0].end... = node; self.pop_context() *)
Definition pop_block (e : vnode) (st : pstate) : outcome pstate :=
  match ctx st with
  | f :: g :: r =>
    match close_frame f e with
    | Some n => Ok (with_ctx (add_body n g :: r) st)
    | None => Panic PNil
    end
  | _ => Panic PIndex
  end.

(** go/vimlparser.go:350-359  find_context(t) != -1. *)
Definition in_context (f : fkind -> bool) (st : pstate) : bool :=
  existsb (fun x => f (f_kind x)) (ctx st).

(** go/vimlparser.go:1932-1934  ends_excmds, on a [ch] and on the result of peekn(1). *)
Definition ends_excmds (c : ch) : bool :=
  match c with CR r => (r =? C "|") || (r =? C """") | _ => true end.
Definition ends_excmds1 (o : option N) : bool :=
  match o with Some r => (r =? C "|") || (r =? C """") | None => true end.

(** * ExArg updates *)

(** &ExArg{} *)
Definition ea0 : exarg :=
  mkEa false [] 0 false 0 0 0 [] [] [] None None None None [] [].

Definition ea_set_line (p : pos) (e : exarg) : exarg :=
  mkEa (ea_forceit e) (ea_do_ecmd_cmd e) (ea_append e) (ea_usefilter e) (ea_amount e)
       (ea_force_bin e) (ea_read_edit e) (ea_force_ff e) (ea_force_enc e) (ea_bad_char e)
       (Some p) (ea_cmdpos e) (ea_argpos e) (ea_cmd e) (ea_modifiers e) (ea_range e).
Definition ea_set_mods (m : list modifier) (e : exarg) : exarg :=
  mkEa (ea_forceit e) (ea_do_ecmd_cmd e) (ea_append e) (ea_usefilter e) (ea_amount e)
       (ea_force_bin e) (ea_read_edit e) (ea_force_ff e) (ea_force_enc e) (ea_bad_char e)
       (ea_linepos e) (ea_cmdpos e) (ea_argpos e) (ea_cmd e) m (ea_range e).
Definition ea_set_range (r : list text) (e : exarg) : exarg :=
  mkEa (ea_forceit e) (ea_do_ecmd_cmd e) (ea_append e) (ea_usefilter e) (ea_amount e)
       (ea_force_bin e) (ea_read_edit e) (ea_force_ff e) (ea_force_enc e) (ea_bad_char e)
       (ea_linepos e) (ea_cmdpos e) (ea_argpos e) (ea_cmd e) (ea_modifiers e) r.
Definition ea_set_cmdpos (p : pos) (e : exarg) : exarg :=
  mkEa (ea_forceit e) (ea_do_ecmd_cmd e) (ea_append e) (ea_usefilter e) (ea_amount e)
       (ea_force_bin e) (ea_read_edit e) (ea_force_ff e) (ea_force_enc e) (ea_bad_char e)
       (ea_linepos e) (Some p) (ea_argpos e) (ea_cmd e) (ea_modifiers e) (ea_range e).
Definition ea_set_argpos (p : pos) (e : exarg) : exarg :=
  mkEa (ea_forceit e) (ea_do_ecmd_cmd e) (ea_append e) (ea_usefilter e) (ea_amount e)
       (ea_force_bin e) (ea_read_edit e) (ea_force_ff e) (ea_force_enc e) (ea_bad_char e)
       (ea_linepos e) (ea_cmdpos e) (Some p) (ea_cmd e) (ea_modifiers e) (ea_range e).
Definition ea_set_cmd (c : cmd) (force : bool) (e : exarg) : exarg :=
  mkEa force (ea_do_ecmd_cmd e) (ea_append e) (ea_usefilter e) (ea_amount e)
       (ea_force_bin e) (ea_read_edit e) (ea_force_ff e) (ea_force_enc e) (ea_bad_char e)
       (ea_linepos e) (ea_cmdpos e) (ea_argpos e) (Some c) (ea_modifiers e) (ea_range e).
Definition ea_set_force_bin (n : N) (e : exarg) : exarg :=
  mkEa (ea_forceit e) (ea_do_ecmd_cmd e) (ea_append e) (ea_usefilter e) (ea_amount e)
       n (ea_read_edit e) (ea_force_ff e) (ea_force_enc e) (ea_bad_char e)
       (ea_linepos e) (ea_cmdpos e) (ea_argpos e) (ea_cmd e) (ea_modifiers e) (ea_range e).
Definition ea_set_read_edit (n : N) (e : exarg) : exarg :=
  mkEa (ea_forceit e) (ea_do_ecmd_cmd e) (ea_append e) (ea_usefilter e) (ea_amount e)
       (ea_force_bin e) n (ea_force_ff e) (ea_force_enc e) (ea_bad_char e)
       (ea_linepos e) (ea_cmdpos e) (ea_argpos e) (ea_cmd e) (ea_modifiers e) (ea_range e).
Definition ea_set_force_ff (s : text) (e : exarg) : exarg :=
  mkEa (ea_forceit e) (ea_do_ecmd_cmd e) (ea_append e) (ea_usefilter e) (ea_amount e)
       (ea_force_bin e) (ea_read_edit e) s (ea_force_enc e) (ea_bad_char e)
       (ea_linepos e) (ea_cmdpos e) (ea_argpos e) (ea_cmd e) (ea_modifiers e) (ea_range e).
Definition ea_set_force_enc (s : text) (e : exarg) : exarg :=
  mkEa (ea_forceit e) (ea_do_ecmd_cmd e) (ea_append e) (ea_usefilter e) (ea_amount e)
       (ea_force_bin e) (ea_read_edit e) (ea_force_ff e) s (ea_bad_char e)
       (ea_linepos e) (ea_cmdpos e) (ea_argpos e) (ea_cmd e) (ea_modifiers e) (ea_range e).
Definition ea_set_bad_char (s : text) (e : exarg) : exarg :=
  mkEa (ea_forceit e) (ea_do_ecmd_cmd e) (ea_append e) (ea_usefilter e) (ea_amount e)
       (ea_force_bin e) (ea_read_edit e) (ea_force_ff e) (ea_force_enc e) s
       (ea_linepos e) (ea_cmdpos e) (ea_argpos e) (ea_cmd e) (ea_modifiers e) (ea_range e).
Definition ea_set_append (n : N) (e : exarg) : exarg :=
  mkEa (ea_forceit e) (ea_do_ecmd_cmd e) n (ea_usefilter e) (ea_amount e)
       (ea_force_bin e) (ea_read_edit e) (ea_force_ff e) (ea_force_enc e) (ea_bad_char e)
       (ea_linepos e) (ea_cmdpos e) (ea_argpos e) (ea_cmd e) (ea_modifiers e) (ea_range e).
Definition ea_set_filter (force : bool) (e : exarg) : exarg :=
  mkEa force (ea_do_ecmd_cmd e) (ea_append e) true (ea_amount e)
       (ea_force_bin e) (ea_read_edit e) (ea_force_ff e) (ea_force_enc e) (ea_bad_char e)
       (ea_linepos e) (ea_cmdpos e) (ea_argpos e) (ea_cmd e) (ea_modifiers e) (ea_range e).
Definition ea_set_amount (n : N) (e : exarg) : exarg :=
  mkEa (ea_forceit e) (ea_do_ecmd_cmd e) (ea_append e) (ea_usefilter e) n
       (ea_force_bin e) (ea_read_edit e) (ea_force_ff e) (ea_force_enc e) (ea_bad_char e)
       (ea_linepos e) (ea_cmdpos e) (ea_argpos e) (ea_cmd e) (ea_modifiers e) (ea_range e).
Definition ea_set_ecmd (s : text) (e : exarg) : exarg :=
  mkEa (ea_forceit e) s (ea_append e) (ea_usefilter e) (ea_amount e)
       (ea_force_bin e) (ea_read_edit e) (ea_force_ff e) (ea_force_enc e) (ea_bad_char e)
       (ea_linepos e) (ea_cmdpos e) (ea_argpos e) (ea_cmd e) (ea_modifiers e) (ea_range e).

(** * Modifiers and ranges *)

(** The modifiers in the order of the if-chain of parse_command_modifiers
    (go/vimlparser.go:449-530), with the minimal abbreviation length. "tab" has to be
    written in full. *)
Definition modifier_table : list (text * nat) :=
  [ (T "aboveleft", 3%nat); (T "belowright", 3%nat); (T "browse", 3%nat);
    (T "botright", 2%nat); (T "confirm", 4%nat); (T "keepmarks", 3%nat);
    (T "keepalt", 5%nat); (T "keepjumps", 5%nat); (T "keeppatterns", 5%nat);
    (T "hide", 3%nat); (T "lockmarks", 3%nat); (T "leftabove", 5%nat);
    (T "noautocmd", 3%nat); (T "noswapfile", 3%nat); (T "rightbelow", 6%nat);
    (T "sandbox", 3%nat); (T "silent", 3%nat); (T "tab", 3%nat); (T "topleft", 2%nat);
    (T "unsilent", 3%nat); (T "vertical", 4%nat); (T "verbose", 4%nat) ].

Fixpoint find_modifier (tbl : list (text * nat)) (k : text) : option text :=
  match tbl with
  | [] => None
  | (name, m) :: t =>
    if is_prefix k name && Nat.leb m (length k) then Some name else find_modifier t k
  end.

(** go/vimlparser.go:437-537  parse_command_modifiers. *)
Fixpoint modifiers_loop (n : nat) (c : cursor) : outcome (list modifier * cursor) :=
  match n with
  | O => OutOfFuel
  | S n' =>
    let '(d, c1) := (if o_in isdigit (peek1 c)
                     then let '(d, c') := read_digit c in (d, skip_white c')
                     else ([], c)) in
    let '(k, c2) := read_alpha c1 in
    let nc := peek1 c2 in
    let c3 := skip_white c2 in
    match find_modifier modifier_table k with
    | None => Ok ([], c)
    | Some name =>
      if text_eqb name (T "hide") && ends_excmds1 nc then Ok ([], c3)
      else
        let* '(m, c4) :=
          (if text_eqb name (T "silent") then
             if o_is nc (C "!") then Ok (mkMod name (Some 1) None, snd (get c3))
             else Ok (mkMod name (Some 0) None, c3)
           else if text_eqb name (T "tab") then
             if is_nil d then Ok (mkMod name None None, c3)
             else let* z := str2nr d in Ok (mkMod name None (Some z), c3)
           else if text_eqb name (T "verbose") then
             if is_nil d then Ok (mkMod name None (Some 1%Z), c3)
             else let* z := str2nr d in Ok (mkMod name None (Some z), c3)
           else Ok (mkMod name None None, c3)) in
        let* '(ms, c5) := modifiers_loop n' c4 in
        Ok (m :: ms, c5)
    end
  end.
Definition parse_command_modifiers (c : cursor) : outcome (list modifier * cursor) :=
  modifiers_loop (S (clen c)) c.

(** go/vimlparser.go:613-641  parse_pattern. The second component tells whether the
    closing delimiter was found (endc == delimiter). *)
Fixpoint pattern_loop (delim : N) (inb : Z) (c : cursor) : outcome (text * bool * cursor) :=
  match c with
  | Cons (R r) _ t =>
    if (r =? delim) && (inb =? 0)%Z then Ok ([], true, t)
    else if r =? 92 then
      match t with
      | Cons (R r2) _ t2 =>
        let* '(s, e, c') := pattern_loop delim inb t2 in Ok (r :: r2 :: s, e, c')
      | _ => raise (T "E682: Invalid search pattern or delimiter") (getpos t)
      end
    else
      let inb' := if r =? C "[" then (inb + 1)%Z else if r =? C "]" then (inb - 1)%Z else inb in
      let* '(s, e, c') := pattern_loop delim inb' t in Ok (r :: s, e, c')
  | _ => Ok ([], false, c)
  end.
Definition parse_pattern (delim : N) (c : cursor) := pattern_loop delim 0 c.

(** go/vimlparser.go:579-589: the offsets after a line specifier. *)
Fixpoint range_ints (n : nat) (c0 : cursor) : outcome (list text * cursor) :=
  match n with
  | O => OutOfFuel
  | S n' =>
    let c := skip_white c0 in
    match peek1 c with
    | None => Ok ([], c)
    | Some _ =>
      let '(s, c1) := read_integer c in
      if is_nil s then Ok ([], c1)
      else let* '(ss, c2) := range_ints n' c1 in Ok (s :: ss, c2)
    end
  end.

(** go/vimlparser.go:549-578: one line specifier. The boolean is false for the break at
    :557. *)
Definition range_spec (r : N) (c : cursor) : outcome (list text * bool * cursor) :=
  if (r =? C ".") || (r =? C "$") then
    let '(s, c1) := getn 1 c in Ok ([s], true, c1)
  else if r =? C "'" then
    let c1 := snd (getn 1 c) in
    let '(m, c2) := getn 1 c1 in
    if is_nil m then Ok ([], false, c2) else Ok ([T "'" ++ m], true, c2)
  else if (r =? C "/") || (r =? C "?") then
    let c1 := snd (getn 1 c) in
    let* '(s, _, c2) := parse_pattern r c1 in Ok ([s], true, c2)
  else if r =? 92 then
    let* m := p_ 1 c in
    if ch_is m (C "&") || ch_is m (C "?") || ch_is m (C "/") then
      let* c2 := seek_cur 2 c in Ok ([92 :: ch_text m], true, c2)
    else raise (T "E10: \\ should be followed by /, ? or &") (getpos c)
  else if isdigit r then
    let '(s, c1) := read_digit c in Ok ([s], true, c1)
  else Ok ([], true, c).

(** go/vimlparser.go:543-593: the inner loop of parse_range. *)
Fixpoint range_inner (n : nat) (c0 : cursor) : outcome (list text * cursor) :=
  match n with
  | O => OutOfFuel
  | S n' =>
    let c := skip_white c0 in
    match peek1 c with
    | None => Ok ([], c)
    | Some r =>
      let* '(toks, go, c1) := range_spec r c in
      if negb go then Ok (toks, c1)
      else
        let* '(ints, c2) := range_ints (S (clen c1)) c1 in
        let* x := p_ 0 c2 in
        if ch_is x (C "/") || ch_is x (C "?") then
          let* '(more, c3) := range_inner n' c2 in Ok (toks ++ ints ++ more, c3)
        else Ok (toks ++ ints, c2)
    end
  end.

(** go/vimlparser.go:540-610  parse_range. *)
Fixpoint range_loop (n : nat) (c : cursor) : outcome (list text * cursor) :=
  match n with
  | O => OutOfFuel
  | S n' =>
    let* '(toks, c1) := range_inner (S (clen c)) c in
    let '(t2, c2) := (if o_in (fun r => (r =? C "%") || (r =? C "*")) (peek1 c1)
                      then let '(s, c') := getn 1 c1 in ([s], c') else ([], c1)) in
    if o_in (fun r => (r =? C ";") || (r =? C ",")) (peek1 c2) then
      let '(s, c3) := getn 1 c2 in
      let* '(more, c4) := range_loop n' c3 in
      Ok (toks ++ t2 ++ s :: more, c4)
    else Ok (toks ++ t2, c2)
  end.
Definition parse_range (c : cursor) : outcome (list text * cursor) := range_loop (S (clen c)) c.

(** * Comments and line ends *)

(** go/vimlparser.go:948-958  parse_comment. *)
Definition parse_comment (st : pstate) : outcome pstate :=
  let c := cur st in
  let '(x, c1) := get c in
  if negb (ch_is x (C """")) then raise (T "unexpected character: " ++ ch_text x) (getpos c)
  else
    let '(s, c2) := getn_all c1 in
    add_node (VComment (getpos c) s) (with_cur c2 st).

(** go/vimlparser.go:960-975  parse_trail. *)
Definition parse_trail (st0 : pstate) : outcome pstate :=
  let c := skip_white (cur st0) in
  let st := with_cur c st0 in
  match peek c with
  | CEof => Ok st
  | CEol => Ok (with_cur (snd (get c)) st)
  | CR r =>
    if r =? C "|" then Ok (with_cur (snd (get c)) st)
    else if r =? C """" then
      let* st1 := parse_comment st in Ok (with_cur (snd (get (cur st1))) st1)
    else raise (T "E488: Trailing characters: " ++ [r]) (getpos c)
  end.

(** * Command names *)

Fixpoint assoc_text {A} (k : text) (l : list (text * A)) : option A :=
  match l with [] => None | (x, v) :: t => if text_eqb k x then Some v else assoc_text k t end.

(** go/vimlparser.go:841-846, 848-859: the first entry of a table that [name]
    abbreviates. *)
Definition cmd_matches (name : text) (x : cmd) : bool :=
  is_prefix name (c_name x) && (c_minlen x <=? N.of_nat (length name)).
Definition find_in (tbl : list cmd) (name : text) : option cmd := find (cmd_matches name) tbl.

(** go/vimlparser.go:840-860: the lookup without cache and without user commands. *)
Definition lookup_builtin (neovim : bool) (name : text) : option cmd :=
  let cmd1 := find_in builtin_commands name in
  if neovim then
    let cmd2 := match find_in neovim_additional_commands name with
                | Some x => Some x | None => cmd1 end in
    match find_in neovim_removed_commands name with Some _ => None | None => cmd2 end
  else cmd1.

(** go/vimlparser.go:813-833: the characters taken as the command name. *)
Definition read_cmd_name (c : cursor) : text * cursor :=
  if o_is (peek1 c) (C "k") then (T "k", snd (getn 1 c))
  else if o_is (peek1 c) (C "s") && re_s_repeat (peekn 5 c) then (T "substitute", snd (getn 1 c))
  else if o_in is_special_cmd (peek1 c) then getn 1 c
  else if text_eqb (peekn 2 c) (T "py") then read_alnum c
  else
    let '(name, c1) := read_alpha c in
    if negb (text_eqb name (T "del")) && re_delete_lp name
    then getn (length name - 1) c
    else (name, c1).

Definition user_cmd (name : text) : cmd := mkCmd name 0 (T "USERCMD") (T "parse_cmd_usercmd").

(** go/vimlparser.go:812-868  find_command. *)
Definition find_command (neovim : bool) (st : pstate) : option cmd * pstate :=
  let '(name, c1) := read_cmd_name (cur st) in
  if is_nil name then (None, with_cur c1 st)
  else
    match assoc_text name (cache st) with
    | Some r => (r, with_cur c1 st)
    | None =>
      let found := lookup_builtin neovim name in
      let user := match found with
                  | None => starts_upper name
                  | Some x => text_eqb (c_name x) (T "Print") && starts_upper name
                  end in
      if user then
        let '(s, c2) := read_alnum c1 in
        let r := Some (user_cmd (name ++ s)) in
        (r, mkSt c2 (ctx st) ((name ++ s, r) :: cache st))
      else (found, mkSt c1 (ctx st) ((name, found) :: cache st))
    end.

(** * Command arguments *)

(** \b at the start of s, after a word character. *)
Definition not_word_at (s : text) : bool := negb (word_at s).

(** ^lit\b on s, lit ending with a word character. *)
Definition re_lit_b (lit s : text) : bool := is_prefix lit s && not_word_at (skipn (length lit) s).
(** ^lit\S on s. *)
Definition re_lit_S (lit s : text) : bool :=
  is_prefix lit s && match skipn (length lit) s with r :: _ => negb (re_space r) | [] => false end.
(** ^lit(dos|unix|mac)\b on s. *)
Definition re_lit_ff (lit s : text) : bool :=
  re_lit_b (lit ++ T "dos") s || re_lit_b (lit ++ T "unix") s || re_lit_b (lit ++ T "mac") s.
(** ^\+\+bad=(keep|drop|.)\b on s. *)
Definition re_bad (s : text) : bool :=
  re_lit_b (T "++bad=keep") s || re_lit_b (T "++bad=drop") s ||
  (is_prefix (T "++bad=") s &&
   match skipn 6 s with
   | r :: t => negb (r =? 10) && xorb (iswordc r) (word_at t)
   | [] => false
   end).

(** go/vimlparser.go:877-917  parse_argopt. *)
Fixpoint argopt_loop (n : nat) (e : exarg) (c : cursor) : outcome (exarg * cursor) :=
  match n with
  | O => OutOfFuel
  | S n' =>
    let* b := p_match 0 (T "++") c in
    if negb b then Ok (e, c)
    else
      let s := peekn 20 c in
      let* '(e1, c1) :=
        (if re_lit_b (T "++bin") s then Ok (ea_set_force_bin 1 e, snd (getn 5 c))
         else if re_lit_b (T "++nobin") s then Ok (ea_set_force_bin 2 e, snd (getn 7 c))
         else if re_lit_b (T "++edit") s then Ok (ea_set_read_edit 1 e, snd (getn 6 c))
         else if re_lit_ff (T "++ff=") s then
           let '(v, c') := read_alpha (snd (getn 5 c)) in Ok (ea_set_force_ff v e, c')
         else if re_lit_ff (T "++fileformat=") s then
           let '(v, c') := read_alpha (snd (getn 13 c)) in Ok (ea_set_force_ff v e, c')
         else if re_lit_S (T "++enc=") s then
           let '(v, c') := read_nonwhite (snd (getn 6 c)) in Ok (ea_set_force_enc v e, c')
         else if re_lit_S (T "++encoding=") s then
           let '(v, c') := read_nonwhite (snd (getn 11 c)) in Ok (ea_set_force_enc v e, c')
         else if re_bad s then
           let c' := snd (getn 6 c) in
           let '(v, c'') := getn (if is_prefix (T "++bad=keep") s || is_prefix (T "++bad=drop") s
                                  then 4 else 1) c' in
           Ok (ea_set_bad_char v e, c'')
         else raise (T "E474: Invalid Argument") (getpos c)) in
      argopt_loop n' e1 (skip_white c1)
  end.
Definition parse_argopt (e : exarg) (c : cursor) : outcome (exarg * cursor) :=
  argopt_loop (S (clen c)) e c.

(** go/vimlparser.go:932-946  read_cmdarg. *)
Fixpoint read_cmdarg (c : cursor) : text * cursor :=
  match c with
  | Cons (R r) _ t =>
    if iswhite r then ([], c)
    else if r =? 92 then
      match t with
      | Cons (R r2) _ t2 => let '(s, c') := read_cmdarg t2 in (r2 :: s, c')
      | _ => ([], t)
      end
    else let '(s, c') := read_cmdarg t in (r :: s, c')
  | _ => ([], c)
  end.

(** go/vimlparser.go:921-930  parse_argcmd. *)
Definition parse_argcmd (e : exarg) (c : cursor) : exarg * cursor :=
  if o_is (peek1 c) (C "+") then
    let c1 := snd (getn 1 c) in
    if o_is (peek1 c1) (C " ") then (ea_set_ecmd (T "$") e, c1)
    else let '(s, c2) := read_cmdarg c1 in (ea_set_ecmd s e, c2)
  else (e, c).

(** go/vimlparser.go:1066-1083  skip_vimgrep_pat. *)
Definition skip_vimgrep_pat (c : cursor) : outcome cursor :=
  match peek1 c with
  | None => Ok c
  | Some r =>
    if iswordc r then Ok (snd (read_nonwhite c))
    else
      let* '(_, closed, c2) := parse_pattern r (snd (getn 1 c)) in
      if negb closed then Ok c2
      else Ok (skip_while (fun x => (x =? C "g") || (x =? C "j")) c2)
  end.

Definition is_vimgrep (name : text) : bool :=
  mem_text name [T "vimgrep"; T "vimgrepadd"; T "lvimgrep"; T "lvimgrepadd"].

Definition has_flag (f : text) (x : cmd) : bool := has_word f (c_flags x).

Definition takes_files (x : cmd) : bool :=
  has_flag (T "XFILE") x || has_flag (T "FILES") x || has_flag (T "FILE1") x.

(** go/vimlparser.go:1020-1058: the loop of separate_nextcmd. Returns the cursors
    [end] and [nospend] and the final reader cursor. The comparison of two *pos values
    at :1046 (getpos() != argpos) is always true, since getpos allocates. *)
Fixpoint sep_loop (n : nat) (x : cmd) (argi : N) (pc : option N) (nosp : cursor) (c : cursor)
  : outcome (cursor * cursor * cursor) :=
  match n with
  | O => OutOfFuel
  | S n' =>
    let nosp1 := if o_in iswhite pc then nosp else c in
    match peek c with
    | CEof | CEol => Ok (c, nosp1, c)
    | CR r =>
      if r =? 22 then
        let c1 := snd (get c) in
        match peek c1 with
        | CEof | CEol => Ok (c1, c1, c1)
        | CR r2 => sep_loop n' x argi (Some r2) c1 (snd (get c1))
        end
      else if text_eqb (peekn 2 c) (T "`=") && takes_files x then
        let* '(_, c2) := parse_expr (snd (getn 2 c)) in
        if negb (o_is (peek1 c2) (C "`"))
        then raise (T "unexpected character: " ++ o_text (peek1 c2)) (getpos c2)
        else sep_loop n' x argi (Some (C "`")) nosp1 (snd (getn 1 c2))
      else if (r =? C "|") || (r =? 10) ||
              ((r =? C """") && negb (has_flag (T "NOTRLCOM") x) &&
               (negb (text_eqb (c_name x) (T "redir")) || negb (p_i (getpos c) =? argi + 1) ||
                negb (o_is pc (C "@")))) then
        if o_is pc 92 then sep_loop n' x argi (Some r) nosp1 (snd (get c))
        else Ok (c, nosp1, c)
      else sep_loop n' x argi (Some r) nosp1 (snd (get c))
    end
  end.

(** go/vimlparser.go:1013-1063  separate_nextcmd: the cursor at the end of the
    command, and the reader cursor. *)
Definition separate_nextcmd (x : cmd) (argi : N) (c0 : cursor) : outcome (cursor * cursor) :=
  let* c := (if is_vimgrep (c_name x) then skip_vimgrep_pat c0 else Ok c0) in
  let* '(e, ns, c1) := sep_loop (S (clen c)) x argi None c c in
  Ok (if has_flag (T "NOTRLCOM") x then e else ns, c1).

(** * Commands *)

(** What the command functions see of ExArg: the record, and the cursors linepos and
    cmdpos stand for. *)
Record ectx := mkEc { ec_ea : exarg; ec_line : cursor; ec_cmd : cursor; ec_arg : cursor; ec_x : cmd }.

Definition cmdpos (k : ectx) : pos := getpos (ec_cmd k).

(** go/vimlparser.go:987-1011  parse_cmd_common. *)
Definition parse_cmd_common (k : ectx) (st : pstate) : outcome pstate :=
  let* '(e, c1) :=
    (if has_flag (T "TRLBAR") (ec_x k) && negb (ea_usefilter (ec_ea k))
     then separate_nextcmd (ec_x k) (p_i (getpos (ec_arg k))) (cur st)
     else let c' := snd (getn_all (cur st)) in Ok (c', c')) in
  add_node (VExcmd (cmdpos k) (ec_ea k) (getstr (ec_line k) e)) (with_cur c1 st).

(** go/vimlparser.go:1090-1100, 1144-1154: lines up to the marker [m]. *)
Fixpoint until_marker (n : nat) (m : text) (c : cursor) : outcome (list text * cursor) :=
  match n with
  | O => OutOfFuel
  | S n' =>
    if is_eof c then Ok ([], c)
    else
      let '(l, c1) := getn_all c in
      if text_eqb l m then Ok ([l], c1)
      else let* '(ls, c2) := until_marker n' m (snd (get c1)) in Ok (l :: ls, c2)
  end.

(** go/vimlparser.go:1085-1106  parse_cmd_append; :1108-1110 parse_cmd_insert. *)
Definition parse_cmd_append (k : ectx) (st : pstate) : outcome pstate :=
  let '(l, c1) := readline (ec_line k) in
  let* '(ls, c2) := until_marker (S (clen c1)) (T ".") c1 in
  add_node (VExcmd (cmdpos k) (ec_ea k) (join_lines (l :: ls))) (with_cur c2 st).

(** go/vimlparser.go:1116-1122: all remaining lines. *)
Fixpoint read_all_lines (n : nat) (c : cursor) : outcome (list text * cursor) :=
  match n with
  | O => OutOfFuel
  | S n' =>
    if is_eof c then Ok ([], c)
    else let '(l, c1) := readline c in
         let* '(ls, c2) := read_all_lines n' c1 in Ok (l :: ls, c2)
  end.

(** go/vimlparser.go:1112-1128  parse_cmd_loadkeymap. *)
Definition parse_cmd_loadkeymap (k : ectx) (st : pstate) : outcome pstate :=
  let '(l, c1) := readline (ec_line k) in
  let* '(ls, c2) := read_all_lines (S (clen c1)) c1 in
  add_node (VExcmd (cmdpos k) (ec_ea k) (join_lines (l :: ls))) (with_cur c2 st).

(** go/vimlparser.go:1130-1165  parse_cmd_lua (also mzscheme, perl, python, python3,
    ruby, tcl, :1167-1189). *)
Definition parse_cmd_lua (k : ectx) (st : pstate) : outcome pstate :=
  let c := skip_white (cur st) in
  if text_eqb (peekn 2 c) (T "<<") then
    let m := fst (readline (skip_white (snd (getn 2 c)))) in
    let marker := if is_nil m then T "." else m in
    let '(l, c1) := getn_all (ec_line k) in
    let c2 := snd (get c1) in
    let* '(ls, c3) := until_marker (S (clen c2)) marker c2 in
    add_node (VExcmd (cmdpos k) (ec_ea k) (join_lines (l :: ls))) (with_cur c3 st)
  else
    let '(l, c1) := getn_all (ec_line k) in
    add_node (VExcmd (cmdpos k) (ec_ea k) l) (with_cur c1 st).

(** go/vimlparser.go:1191-1196  parse_cmd_finish. *)
Definition parse_cmd_finish (k : ectx) (st : pstate) : outcome pstate :=
  let* st1 := parse_cmd_common k st in
  let* f := top_frame st1 in
  match f_kind f with
  | FTop => Ok (with_cur (seek_end0 (cur st1)) st1)
  | _ => Ok st1
  end.

(** go/vimlparser.go:1804-1811  parse_lvalue_func. *)
Definition parse_lvalue_func (c : cursor) : outcome (vnode * cursor) :=
  let* '(v, c1) := parse_lvalue_ c in
  match v with
  | VIdent _ _ | VCurlyName _ _ | VSubscript _ _ _ | VDot _ _ _
  | VLit LOption _ _ | VLit LEnv _ _ | VLit LReg _ _ => Ok (v, c1)
  | _ => raise (T "Invalid Expression") (vpos v)
  end.

(** go/vimlparser.go:1814-1826  parse_lvalue. *)
Definition parse_lvalue (c : cursor) : outcome (vnode * cursor) :=
  let* '(v, c1) := parse_lvalue_ c in
  match v with
  | VIdent p s =>
    if isvarname s then Ok (v, c1) else raise (T "E461: Illegal variable name: " ++ s) p
  | VCurlyName _ _ | VSubscript _ _ _ | VSlice _ _ _ _ | VDot _ _ _
  | VLit LOption _ _ | VLit LEnv _ _ | VLit LReg _ _ => Ok (v, c1)
  | _ => raise (T "Invalid Expression") (vpos v)
  end.

(** go/vimlparser.go:1829-1849  parse_constlvalue. *)
Definition parse_constlvalue (c : cursor) : outcome (vnode * cursor) :=
  let* '(v, c1) := parse_lvalue_ c in
  match v with
  | VIdent p s =>
    if isvarname s then Ok (v, c1) else raise (T "E461: Illegal variable name: " ++ s) p
  | VCurlyName _ _ => Ok (v, c1)
  | VSubscript p _ _ | VSlice p _ _ _ | VDot p _ _ => raise (T "E996: Cannot lock a list or dict") p
  | VLit LOption p _ => raise (T "E996: Cannot lock an option") p
  | VLit LEnv p _ => raise (T "E996: Cannot lock an environment variable") p
  | VLit LReg p _ => raise (T "E996: Cannot lock a register") p
  | _ => raise (T "Invalid Expression") (vpos v)
  end.

(** go/vimlparser.go:1246-1294: the parameter loop of :function. [ndef] tells whether
    default_args is non-empty. *)
Fixpoint params_loop (n : nat) (named : list text) (ndef : bool) (c : cursor)
  : outcome (list vnode * list vnode * cursor) :=
  match n with
  | O => OutOfFuel
  | S n' =>
    let* '(t, c1) := tget c in
    match tk t with
    | KIdent =>
      if negb (isargname (tv t)) || text_eqb (tv t) (T "firstline") || text_eqb (tv t) (T "lastline")
      then raise (T "E125: Illegal argument: " ++ tv t) (tp t)
      else if mem_text (tv t) named then
        raise (T "E853: Duplicate argument name: " ++ tv t) (tp t)
      else
        let var := VIdent (tp t) (tv t) in
        let* '(t1, c2) := tget c1 in
        let* '(defs, c3) :=
          (if tok_eqb (tk t1) KEq then
             let* '(v, c') := parse_expr c2 in Ok ([v], c')
           else if ndef then
             raise (T "E989: Non-default argument follows default argument") (tp t)
           else Ok ([], c1)) in
        let* x := p_ 0 c3 in
        let* bad := (if ch_in iswhite x then
                       let* t2 := tpeek c3 in Ok (tok_eqb (tk t2) KComma)
                     else Ok false) in
        if bad : bool then
          raise (T "E475: Invalid argument: White space is not allowed before comma") (getpos c3)
        else
          let* '(t3, c4) := tget c3 in
          match tk t3 with
          | KComma =>
            let* '(t4, c5) := tget c4 in
            if tok_eqb (tk t4) KPClose then Ok ([var], defs, c5)
            else
              let* '(vs, ds, c6) := params_loop n' (tv t :: named) (ndef || negb (is_nil defs)) c4 in
              Ok (var :: vs, defs ++ ds, c6)
          | KPClose => Ok ([var], defs, c4)
          | _ => unexpected_token t3
          end
    | KDotDotDot =>
      let* '(t1, c2) := tget c1 in
      if tok_eqb (tk t1) KPClose then Ok ([VIdent (tp t) (tv t)], [], c2)
      else unexpected_token t1
    | _ => unexpected_token t
    end
  end.

(** go/vimlparser.go:1296-1313: the attributes of :function. *)
Fixpoint attr_loop (n : nat) (a : funcattr) (c0 : cursor) : outcome (funcattr * cursor) :=
  match n with
  | O => OutOfFuel
  | S n' =>
    let c := skip_white c0 in
    let '(key, c1) := read_alpha c in
    if is_nil key then Ok (a, c1)
    else if text_eqb key (T "range") then
      attr_loop n' (mkAttr true (a_abort a) (a_dict a) (a_closure a)) c1
    else if text_eqb key (T "abort") then
      attr_loop n' (mkAttr (a_range a) true (a_dict a) (a_closure a)) c1
    else if text_eqb key (T "dict") then
      attr_loop n' (mkAttr (a_range a) (a_abort a) true (a_closure a)) c1
    else if text_eqb key (T "closure") then
      attr_loop n' (mkAttr (a_range a) (a_abort a) (a_dict a) true) c1
    else raise (T "unexpected token: " ++ key) (getpos c)
  end.

(** go/vimlparser.go:1220-1226: the check on a plain function name. *)
Definition bad_function_name (s : text) : outcome bool :=
  match s with
  | [] => Panic PIndex
  | r :: _ => Ok (negb (r =? C "<") && negb (r =? C "_") && negb (isupper r) &&
                  negb (mem_N (C ":") s) && negb (mem_N (C "#") s))
  end.

(** go/vimlparser.go:1203-1316  parse_cmd_function. *)
Definition parse_cmd_function (k : ectx) (st : pstate) : outcome pstate :=
  let c := skip_white (cur st) in
  if ends_excmds (peek c) then parse_cmd_common k st
  else if o_is (peek1 c) (C "/") then parse_cmd_common k st
  else
    let* '(lft, c1) := parse_lvalue_func c in
    let c2 := skip_white c1 in
    let* _ := (match lft with
               | VIdent p s =>
                 let* bad := bad_function_name s in
                 if bad : bool then
                   raise (T "E128: Function name must start with a capital or contain a colon: " ++ s) p
                 else Ok tt
               | _ => Ok tt
               end) in
    if negb (o_is (peek1 c2) (C "(")) then parse_cmd_common k st
    else
      let c3 := snd (getn 1 c2) in
      let* '(t, c4) := tget c3 in
      let* '(rl, da, c5) :=
        (if tok_eqb (tk t) KPClose then Ok ([], [], c4)
         else params_loop (S (clen c3)) [] false c3) in
      let* '(a, c6) := attr_loop (S (clen c5)) (mkAttr false false false false) c5 in
      Ok (push_context (FFunction lft rl da a) (cmdpos k) (ec_ea k) (with_cur c6 st)).

(** go/vimlparser.go:1318-1332  parse_cmd_endfunction. *)
Definition parse_cmd_endfunction (k : ectx) (st : pstate) : outcome pstate :=
  let* f := top_frame st in
  let* _ := check_missing_if_try_loops (T "ENDFUNCTION") (cmdpos k) f in
  if negb (is_function (f_kind f)) then
    raise (T "E193: :endfunction not inside a function") (cmdpos k)
  else
    pop_block (VEndfunction (cmdpos k) (ec_ea k)) (with_cur (snd (getn_all (cur st))) st).

(** go/vimlparser.go:1334-1340  parse_cmd_delfunction. *)
Definition parse_cmd_delfunction (k : ectx) (st : pstate) : outcome pstate :=
  let* '(v, c1) := parse_lvalue_func (cur st) in
  add_node (VDelfunction (cmdpos k) (ec_ea k) v) (with_cur c1 st).

(** go/vimlparser.go:1342-1356  parse_cmd_return. *)
Definition parse_cmd_return (k : ectx) (st : pstate) : outcome pstate :=
  if negb (in_context is_function st) then
    raise (T "E133: :return not inside a function") (cmdpos k)
  else
    let c := skip_white (cur st) in
    if ch_is (peek c) (C """") || negb (ends_excmds (peek c)) then
      let* '(v, c1) := parse_expr c in
      add_node (VReturn (cmdpos k) (ec_ea k) (Some v)) (with_cur c1 st)
    else add_node (VReturn (cmdpos k) (ec_ea k) None) (with_cur c st).

(** go/vimlparser.go:1358-1372  parse_cmd_call. *)
Definition parse_cmd_call (k : ectx) (st : pstate) : outcome pstate :=
  let c := skip_white (cur st) in
  if ends_excmds (peek c) then raise (T "E471: Argument required") (getpos c)
  else
    let* '(v, c1) := parse_expr c in
    match v with
    | VCall _ _ _ => add_node (VExcall (cmdpos k) (ec_ea k) v) (with_cur c1 st)
    | _ => raise (T "Not an function call") (vpos v)
    end.

(** go/vimlparser.go:1379-1395: the words after "=<<". *)
Fixpoint heredoc_words (n : nat) (c0 : cursor) : outcome (list vnode * text * cursor) :=
  match n with
  | O => OutOfFuel
  | S n' =>
    let c := skip_white c0 in
    let '(key, c1) := read_word c in
    match key with
    | [] => Ok ([], [], c1)
    | r :: _ =>
      if negb (islower r) then Ok ([], key, c1)
      else
        let* '(ws, m, c2) := heredoc_words n' c1 in
        Ok (VLit LString (getpos c) key :: ws, m, c2)
    end
  end.

(** go/vimlparser.go:1400-1415: the lines of a heredoc. *)
Fixpoint heredoc_lines (n : nat) (m : text) (c : cursor) : outcome (list vnode * cursor) :=
  match n with
  | O => OutOfFuel
  | S n' =>
    if is_eof c then raise (T "E990: Missing end marker '" ++ m ++ T "'") (getpos c)
    else
      let '(l, c1) := getn_all c in
      if text_eqb l m then Ok ([], c1)
      else
        let* '(ls, c2) := heredoc_lines n' m (snd (get c1)) in
        Ok (VLit LString (getpos c) l :: ls, c2)
  end.

(** go/vimlparser.go:1374-1416  parse_heredoc. A trailing comment is added to the
    context by parse_trail. *)
Definition parse_heredoc (k : ectx) (st : pstate) : outcome (vnode * pstate) :=
  let* '(ws, m, c1) := heredoc_words (S (clen (cur st))) (cur st) in
  if is_nil m then raise (T "E172: Missing marker") (getpos c1)
  else
    let* st1 := parse_trail (with_cur c1 st) in
    let* '(ls, c2) := heredoc_lines (S (clen (cur st1))) m (cur st1) in
    Ok (VHeredoc (cmdpos k) ws m ls, with_cur c2 st1).

(** go/vimlparser.go:1872-1892: the list form of parse_letlhs and parse_constlhs, after
    "[". *)
Fixpoint lhs_loop (n : nat) (c : cursor) : outcome (list vnode * option vnode * cursor) :=
  match n with
  | O => OutOfFuel
  | S n' =>
    let* '(v, c1) := parse_lvalue c in
    let* '(t, c2) := tget c1 in
    match tk t with
    | KSqClose => Ok ([v], None, c2)
    | KComma => let* '(vs, r, c3) := lhs_loop n' c2 in Ok (v :: vs, r, c3)
    | KSemicolon =>
      let* '(w, c3) := parse_lvalue c2 in
      let* '(t2, c4) := tget c3 in
      if tok_eqb (tk t2) KSqClose then Ok ([v], Some w, c4)
      else raise (T "E475 Invalid argument: " ++ tv t2) (tp t2)
    | _ => raise (T "E475 Invalid argument: " ++ tv t) (tp t)
    end
  end.

(** go/vimlparser.go:1867-1897  parse_letlhs ([one] = parse_lvalue) and :1900-1930
    parse_constlhs ([one] = parse_constlvalue). *)
Definition parse_lhs (one : cursor -> outcome (vnode * cursor)) (c : cursor)
  : outcome (option vnode * list vnode * option vnode * cursor) :=
  let* '(t, c1) := tget c in
  if tok_eqb (tk t) KSqOpen then
    let* '(vs, r, c2) := lhs_loop (S (clen c1)) c1 in Ok (None, vs, r, c2)
  else let* '(v, c2) := one c in Ok (Some v, [], None, c2).

(** The assignment operators with a two or three character spelling. *)
Definition is_assign_op (s : text) : bool :=
  mem_text s [T "+="; T "-="; T ".="; T "..="; T "*="; T "/="; T "%="].

(** go/vimlparser.go:1418-1470  parse_cmd_let. *)
Definition parse_cmd_let (k : ectx) (st : pstate) : outcome pstate :=
  let c := skip_white (cur st) in
  if ends_excmds (peek c) then parse_cmd_common k st
  else
    let* '(l, ls, rs, c1) := parse_lhs parse_lvalue c in
    let c2 := skip_white c1 in
    let s1 := peekn 1 c2 in
    let s2 := (let s := peekn 2 c2 in
               if text_eqb s (T "..") || text_eqb s (T "=<") then peekn 3 c2 else s) in
    if ends_excmds1 (peek1 c2) ||
       (negb (is_assign_op s2) && negb (text_eqb s2 (T "=<<")) && negb (text_eqb s1 (T "=")))
    then parse_cmd_common k st
    else if is_assign_op s2 then
      let* '(v, c3) := parse_expr (snd (getn (length s2) c2)) in
      add_node (VLet (cmdpos k) (ec_ea k) s2 l ls rs (Some v)) (with_cur c3 st)
    else if text_eqb s2 (T "=<<") then
      let* '(h, st1) := parse_heredoc k (with_cur (skip_white (snd (getn (length s2) c2))) st) in
      add_node (VLet (cmdpos k) (ec_ea k) s2 l ls rs (Some h)) st1
    else if text_eqb s1 (T "=") then
      let* '(v, c3) := parse_expr (snd (getn 1 c2)) in
      add_node (VLet (cmdpos k) (ec_ea k) s1 l ls rs (Some v)) (with_cur c3 st)
    else Panic PNotReached.

(** go/vimlparser.go:1472-1501  parse_cmd_const. *)
Definition parse_cmd_const (k : ectx) (st : pstate) : outcome pstate :=
  let c := skip_white (cur st) in
  if ends_excmds (peek c) then parse_cmd_common k st
  else
    let* '(l, ls, rs, c1) := parse_lhs parse_constlvalue c in
    let c2 := skip_white c1 in
    if ends_excmds1 (peek1 c2) || negb (o_is (peek1 c2) (C "=")) then parse_cmd_common k st
    else
      let* '(v, c3) := parse_expr (snd (getn 1 c2)) in
      add_node (VConst (cmdpos k) (ec_ea k) (T "=") l ls rs (Some v)) (with_cur c3 st).

(** go/vimlparser.go:1855-1862: the loop of parse_lvaluelist. *)
Fixpoint lvalues_loop (n : nat) (c0 : cursor) : outcome (list vnode * cursor) :=
  match n with
  | O => OutOfFuel
  | S n' =>
    let c := skip_white c0 in
    if ends_excmds (peek c) then Ok ([], c)
    else
      let* '(v, c1) := parse_lvalue c in
      let* '(vs, c2) := lvalues_loop n' c1 in Ok (v :: vs, c2)
  end.

(** go/vimlparser.go:1851-1864  parse_lvaluelist: the first element is read by
    parse_expr. *)
Definition parse_lvaluelist (c : cursor) : outcome (list vnode * cursor) :=
  let* '(v, c1) := parse_expr c in
  let* '(vs, c2) := lvalues_loop (S (clen c1)) c1 in Ok (v :: vs, c2).

(** go/vimlparser.go:1790-1802  parse_exprlist. *)
Fixpoint exprs_loop (n : nat) (c0 : cursor) : outcome (list vnode * cursor) :=
  match n with
  | O => OutOfFuel
  | S n' =>
    let c := skip_white c0 in
    if negb (ch_is (peek c) (C """")) && ends_excmds (peek c) then Ok ([], c)
    else
      let* '(v, c1) := parse_expr c in
      let* '(vs, c2) := exprs_loop n' c1 in Ok (v :: vs, c2)
  end.
Definition parse_exprlist (c : cursor) : outcome (list vnode * cursor) := exprs_loop (S (clen c)) c.

(** go/vimlparser.go:1503-1509  parse_cmd_unlet. *)
Definition parse_cmd_unlet (k : ectx) (st : pstate) : outcome pstate :=
  let* '(vs, c1) := parse_lvaluelist (cur st) in
  add_node (VUnlet (cmdpos k) (ec_ea k) vs) (with_cur c1 st).

(** go/vimlparser.go:1511-1523  parse_cmd_lockvar ([mk] = VLockvar) and :1525-1537
    parse_cmd_unlockvar ([mk] = VUnlockvar). *)
Definition parse_cmd_lock (mk : pos -> exarg -> Z -> list vnode -> vnode)
  (k : ectx) (st : pstate) : outcome pstate :=
  let c := skip_white (cur st) in
  let* '(d, c1) :=
    (if o_in isdigit (peek1 c) then
       let '(s, c') := read_digit c in let* z := str2nr s in Ok (z, c')
     else Ok (0%Z, c)) in
  let* '(vs, c2) := parse_lvaluelist c1 in
  add_node (mk (cmdpos k) (ec_ea k) d vs) (with_cur c2 st).

(** go/vimlparser.go:1539-1546  parse_cmd_if. *)
Definition parse_cmd_if (k : ectx) (st : pstate) : outcome pstate :=
  let* '(v, c1) := parse_expr (cur st) in
  Ok (push_context (FIf v [] None) (cmdpos k) (ec_ea k) (with_cur c1 st)).

(** go/vimlparser.go:1548-1561  parse_cmd_elseif. *)
Definition parse_cmd_elseif (k : ectx) (st : pstate) : outcome pstate :=
  let* f := top_frame st in
  match f_kind f with
  | FIf _ _ _ | FElseif _ =>
    let* st1 := (if is_if (f_kind f) then Ok st else pop_part st) in
    let* '(v, c1) := parse_expr (cur st1) in
    Ok (push_context (FElseif v) (cmdpos k) (ec_ea k) (with_cur c1 st1))
  | _ => raise (T "E582: :elseif without :if") (cmdpos k)
  end.

(** go/vimlparser.go:1563-1575  parse_cmd_else. *)
Definition parse_cmd_else (k : ectx) (st : pstate) : outcome pstate :=
  let* f := top_frame st in
  match f_kind f with
  | FIf _ _ _ | FElseif _ =>
    let* st1 := (if is_if (f_kind f) then Ok st else pop_part st) in
    Ok (push_context FElse (cmdpos k) (ec_ea k) st1)
  | _ => raise (T "E581: :else without :if") (cmdpos k)
  end.

(** go/vimlparser.go:1577-1589  parse_cmd_endif. *)
Definition parse_cmd_endif (k : ectx) (st : pstate) : outcome pstate :=
  let* f := top_frame st in
  if negb (is_if_part (f_kind f)) then raise (T "E580: :endif without :if") (cmdpos k)
  else
    let* st1 := (if is_if (f_kind f) then Ok st else pop_part st) in
    pop_block (VEndif (cmdpos k) (ec_ea k)) st1.

(** go/vimlparser.go:1591-1599  parse_cmd_while. *)
Definition parse_cmd_while (k : ectx) (st : pstate) : outcome pstate :=
  let* '(v, c1) := parse_expr (cur st) in
  Ok (push_context (FWhile v) (cmdpos k) (ec_ea k) (with_cur c1 st)).

(** go/vimlparser.go:1601-1610  parse_cmd_endwhile. *)
Definition parse_cmd_endwhile (k : ectx) (st : pstate) : outcome pstate :=
  let* f := top_frame st in
  if negb (is_while (f_kind f)) then raise (T "E588: :endwhile without :while") (cmdpos k)
  else pop_block (VEndwhile (cmdpos k) (ec_ea k)) st.

(** go/vimlparser.go:1612-1630  parse_cmd_for. *)
Definition parse_cmd_for (k : ectx) (st : pstate) : outcome pstate :=
  let* '(l, ls, rs, c1) := parse_lhs parse_lvalue (cur st) in
  let c2 := skip_white c1 in
  let '(s, c3) := read_alpha c2 in
  if negb (text_eqb s (T "in")) then raise (T "Missing ""in"" after :for") (getpos c2)
  else
    let* '(v, c4) := parse_expr c3 in
    Ok (push_context (FFor l ls rs v) (cmdpos k) (ec_ea k) (with_cur c4 st)).

(** go/vimlparser.go:1632-1641  parse_cmd_endfor. *)
Definition parse_cmd_endfor (k : ectx) (st : pstate) : outcome pstate :=
  let* f := top_frame st in
  if negb (is_for (f_kind f)) then raise (T "E588: :endfor without :for") (cmdpos k)
  else pop_block (VEndfor (cmdpos k) (ec_ea k)) st.

(** go/vimlparser.go:1643-1651  parse_cmd_continue, :1653-1661 parse_cmd_break. *)
Definition parse_cmd_continue (k : ectx) (st : pstate) : outcome pstate :=
  if negb (in_context is_while st) && negb (in_context is_for st)
  then raise (T "E586: :continue without :while or :for") (cmdpos k)
  else add_node (VContinue (cmdpos k) (ec_ea k)) st.
Definition parse_cmd_break (k : ectx) (st : pstate) : outcome pstate :=
  if negb (in_context is_while st) && negb (in_context is_for st)
  then raise (T "E587: :break without :while or :for") (cmdpos k)
  else add_node (VBreak (cmdpos k) (ec_ea k)) st.

(** go/vimlparser.go:1663-1669  parse_cmd_try. *)
Definition parse_cmd_try (k : ectx) (st : pstate) : outcome pstate :=
  Ok (push_context (FTry [] None) (cmdpos k) (ec_ea k) st).

(** go/vimlparser.go:1671-1689  parse_cmd_catch. *)
Definition parse_cmd_catch (k : ectx) (st : pstate) : outcome pstate :=
  let* f := top_frame st in
  match f_kind f with
  | FFinally => raise (T "E604: :catch after :finally") (cmdpos k)
  | FTry _ _ | FCatch _ =>
    let* st1 := (if is_try (f_kind f) then Ok st else pop_part st) in
    let c := skip_white (cur st1) in
    let* '(pat, c1) :=
      (if ends_excmds (peek c) then Ok ([], c)
       else match get c with
            | (CR d, c') => let* '(s, _, c'') := parse_pattern d c' in Ok (s, c'')
            | (_, c') => Ok ([], c')
            end) in
    Ok (push_context (FCatch pat) (cmdpos k) (ec_ea k) (with_cur c1 st1))
  | _ => raise (T "E603: :catch without :try") (cmdpos k)
  end.

(** go/vimlparser.go:1691-1703  parse_cmd_finally. *)
Definition parse_cmd_finally (k : ectx) (st : pstate) : outcome pstate :=
  let* f := top_frame st in
  match f_kind f with
  | FTry _ _ | FCatch _ =>
    let* st1 := (if is_try (f_kind f) then Ok st else pop_part st) in
    Ok (push_context FFinally (cmdpos k) (ec_ea k) st1)
  | _ => raise (T "E606: :finally without :try") (cmdpos k)
  end.

(** go/vimlparser.go:1705-1717  parse_cmd_endtry. *)
Definition parse_cmd_endtry (k : ectx) (st : pstate) : outcome pstate :=
  let* f := top_frame st in
  if negb (is_try_part (f_kind f)) then raise (T "E602: :endtry without :try") (cmdpos k)
  else
    let* st1 := (if is_try (f_kind f) then Ok st else pop_part st) in
    pop_block (VEndtry (cmdpos k) (ec_ea k)) st1.

(** go/vimlparser.go:1719-1725  parse_cmd_throw, :1727-1733 parse_cmd_eval. *)
Definition parse_cmd_throw (k : ectx) (st : pstate) : outcome pstate :=
  let* '(v, c1) := parse_expr (cur st) in
  add_node (VThrow (cmdpos k) (ec_ea k) v) (with_cur c1 st).
Definition parse_cmd_eval (k : ectx) (st : pstate) : outcome pstate :=
  let* '(v, c1) := parse_expr (cur st) in
  add_node (VEval (cmdpos k) (ec_ea k) v) (with_cur c1 st).

(** go/vimlparser.go:1735-1749, 1762-1776  parse_cmd_echo, echon, echomsg, echoerr. *)
Definition parse_cmd_echo (kind : echokind) (k : ectx) (st : pstate) : outcome pstate :=
  let* '(vs, c1) := parse_exprlist (cur st) in
  add_node (VEcho kind (cmdpos k) (ec_ea k) vs) (with_cur c1 st).

(** go/vimlparser.go:1751-1760  parse_cmd_echohl. *)
Definition parse_cmd_echohl (k : ectx) (st : pstate) : outcome pstate :=
  let '(s, c1) := read_while (fun r => negb (ends_excmds (CR r))) (cur st) in
  add_node (VEchohl (cmdpos k) (ec_ea k) s) (with_cur c1 st).

(** go/vimlparser.go:1778-1784  parse_cmd_execute. *)
Definition parse_cmd_execute (k : ectx) (st : pstate) : outcome pstate :=
  let* '(vs, c1) := parse_exprlist (cur st) in
  add_node (VExecute (cmdpos k) (ec_ea k) vs) (with_cur c1 st).

(** go/vimlparser.go:1937-1958  parse_wincmd. *)
Definition parse_wincmd (k : ectx) (st : pstate) : outcome pstate :=
  let '(s, c1) := getn 1 (cur st) in
  match s with
  | [] => raise (T "E471: Argument required") (getpos c1)
  | r :: _ =>
    let* c2 :=
      (if (r =? C "g") || (r =? 7) then
         let '(s2, c') := getn 1 c1 in
         match s2 with
         | [] => raise (T "E474: Invalid Argument") (getpos c')
         | r2 :: _ => if iswhite r2 then raise (T "E474: Invalid Argument") (getpos c') else Ok c'
         end
       else Ok c1) in
    let c3 := skip_white c2 in
    if negb (ends_excmds (peek c3)) then raise (T "E474: Invalid Argument") (getpos c3)
    else add_node (VExcmd (cmdpos k) (ec_ea k) (getstr (ec_line k) c2)) (with_cur c3 st)
  end.

(** go/vimlparser.go:1963-1976: the loop of parse_cmd_syntax; the result is both the
    end of the command and the reader cursor. *)
Fixpoint syntax_loop (n : nat) (c : cursor) : outcome cursor :=
  match n with
  | O => OutOfFuel
  | S n' =>
    match peek c with
    | CEof | CEol => Ok c
    | CR r =>
      if (r =? C "/") || (r =? C "'") || (r =? C """") then
        let* '(_, _, c1) := parse_pattern r (snd (getn 1 c)) in
        syntax_loop n' (snd (getn 1 c1))
      else if r =? C "=" then
        let* '(_, _, c1) := parse_pattern (C " ") (snd (getn 1 c)) in
        syntax_loop n' (snd (getn 1 c1))
      else if r =? C "|" then Ok c
      else syntax_loop n' (snd (getn 1 c))
    end
  end.

(** go/vimlparser.go:1961-1982  parse_cmd_syntax. *)
Definition parse_cmd_syntax (k : ectx) (st : pstate) : outcome pstate :=
  let* c1 := syntax_loop (S (clen (cur st))) (cur st) in
  add_node (VExcmd (cmdpos k) (ec_ea k) (getstr (ec_line k) c1)) (with_cur c1 st).

(** The Go names of the command functions, with what they do. *)
Definition parser_table : list (text * (ectx -> pstate -> outcome pstate)) := [
  (T "parse_cmd_append", parse_cmd_append);
  (T "parse_cmd_break", parse_cmd_break);
  (T "parse_cmd_call", parse_cmd_call);
  (T "parse_cmd_catch", parse_cmd_catch);
  (T "parse_cmd_common", parse_cmd_common);
  (T "parse_cmd_continue", parse_cmd_continue);
  (T "parse_cmd_delfunction", parse_cmd_delfunction);
  (T "parse_cmd_echo", parse_cmd_echo EEcho);
  (T "parse_cmd_echoerr", parse_cmd_echo EEchoerr);
  (T "parse_cmd_echohl", parse_cmd_echohl);
  (T "parse_cmd_echomsg", parse_cmd_echo EEchomsg);
  (T "parse_cmd_echon", parse_cmd_echo EEchon);
  (T "parse_cmd_else", parse_cmd_else);
  (T "parse_cmd_elseif", parse_cmd_elseif);
  (T "parse_cmd_endfor", parse_cmd_endfor);
  (T "parse_cmd_endfunction", parse_cmd_endfunction);
  (T "parse_cmd_endif", parse_cmd_endif);
  (T "parse_cmd_endtry", parse_cmd_endtry);
  (T "parse_cmd_endwhile", parse_cmd_endwhile);
  (T "parse_cmd_execute", parse_cmd_execute);
  (T "parse_cmd_finally", parse_cmd_finally);
  (T "parse_cmd_finish", parse_cmd_finish);
  (T "parse_cmd_for", parse_cmd_for);
  (T "parse_cmd_function", parse_cmd_function);
  (T "parse_cmd_if", parse_cmd_if);
  (T "parse_cmd_insert", parse_cmd_append);
  (T "parse_cmd_let", parse_cmd_let);
  (T "parse_cmd_const", parse_cmd_const);
  (T "parse_cmd_loadkeymap", parse_cmd_loadkeymap);
  (T "parse_cmd_lockvar", parse_cmd_lock VLockvar);
  (T "parse_cmd_lua", parse_cmd_lua);
  (T "parse_cmd_mzscheme", parse_cmd_lua);
  (T "parse_cmd_perl", parse_cmd_lua);
  (T "parse_cmd_python", parse_cmd_lua);
  (T "parse_cmd_python3", parse_cmd_lua);
  (T "parse_cmd_return", parse_cmd_return);
  (T "parse_cmd_ruby", parse_cmd_lua);
  (T "parse_cmd_tcl", parse_cmd_lua);
  (T "parse_cmd_throw", parse_cmd_throw);
  (T "parse_cmd_eval", parse_cmd_eval);
  (T "parse_cmd_try", parse_cmd_try);
  (T "parse_cmd_unlet", parse_cmd_unlet);
  (T "parse_cmd_unlockvar", parse_cmd_lock VUnlockvar);
  (T "parse_cmd_usercmd", parse_cmd_common);
  (T "parse_cmd_while", parse_cmd_while);
  (T "parse_wincmd", parse_wincmd);
  (T "parse_cmd_syntax", parse_cmd_syntax) ].

(** go/vimlparser.go:710-810  _parse_command. "parse_cmd_modifier_range" (:773) is in
    the Go chain but in no table entry. *)
Definition dispatch (k : ectx) (st : pstate) : outcome pstate :=
  match assoc_text (c_parser (ec_x k)) parser_table with
  | Some f => f k st
  | None => Panic PUnknownParser
  end.

(** go/vimlparser.go:673-685: ":write >>", ":write !", ":update >>". *)
Definition write_args (name : text) (cp : pos) (e : exarg) (c : cursor) : outcome (exarg * cursor) :=
  if text_eqb name (T "write") || text_eqb name (T "update") then
    let* x := p_ 0 c in
    if ch_is x (C ">") then
      let* y := p_ 1 c in
      if negb (ch_is y (C ">")) then raise (T "E494: Use w or w>>") cp
      else let* c1 := seek_cur 2 c in Ok (ea_set_append 1 e, skip_white c1)
    else if o_is (peek1 c) (C "!") && text_eqb name (T "write") then
      Ok (ea_set_filter (ea_forceit e) e, snd (getn 1 c))
    else Ok (e, c)
  else Ok (e, c).

(** go/vimlparser.go:686-694: ":read!" and ":read !". *)
Definition read_args (name : text) (e : exarg) (c : cursor) : exarg * cursor :=
  if text_eqb name (T "read") then
    if ea_forceit e then (ea_set_filter false e, c)
    else if o_is (peek1 c) (C "!") then (ea_set_filter (ea_forceit e) e, snd (getn 1 c))
    else (e, c)
  else (e, c).

(** go/vimlparser.go:695-702: ":<" and ":>". *)
Definition shift_args (name : text) (e : exarg) (c : cursor) : exarg * cursor :=
  match name with
  | [r] =>
    if (r =? C "<") || (r =? C ">") then
      let '(s, c1) := read_while (fun x => x =? r) c in
      (ea_set_amount (1 + N.of_nat (length s)) e, skip_white c1)
    else (e, c)
  | _ => (e, c)
  end.

(** go/vimlparser.go:978-984  parse_cmd_modifier_range. *)
Definition parse_cmd_modifier_range (e : exarg) (line : cursor) (st : pstate) : outcome pstate :=
  add_node (VExcmd (getpos (cur st)) e (getstr line (cur st))) st.

(** go/vimlparser.go:643-707  parse_command. [line] is the cursor of linepos. *)
Definition parse_command (neovim : bool) (e0 : exarg) (line : cursor) (st0 : pstate)
  : outcome pstate :=
  let c0 := skip_white_and_colon (cur st0) in
  let st1 := with_cur c0 st0 in
  let e := ea_set_cmdpos (getpos c0) e0 in
  match peek1 c0 with
  | None => if is_nil (ea_modifiers e) && is_nil (ea_range e) then Ok st1
            else parse_cmd_modifier_range e line st1
  | Some r =>
    if r =? C """" then
      if is_nil (ea_modifiers e) && is_nil (ea_range e) then Ok st1
      else parse_cmd_modifier_range e line st1
    else
      match find_command neovim st1 with
      | (None, _) => raise (T "E492: Not an editor command: " ++ peekline c0) (getpos c0)
      | (Some x, st2) =>
        let name := c_name x in
        let c1 := cur st2 in
        let force := o_is (peek1 c1) (C "!") && negb (text_eqb name (T "substitute")) &&
                     negb (text_eqb name (T "smagic")) && negb (text_eqb name (T "snomagic")) in
        let c2 := if force then snd (getn 1 c1) else c1 in
        let e1 := ea_set_cmd x force e in
        if negb (has_flag (T "BANG") x) && force && negb (has_flag (T "USERCMD") x)
        then raise (T "E477: No ! allowed") (getpos c0)
        else
          let c3 := if negb (text_eqb name (T "!")) then skip_white c2 else c2 in
          let e2 := ea_set_argpos (getpos c3) e1 in
          let* '(e3, c4) := (if has_flag (T "ARGOPT") x then parse_argopt e2 c3 else Ok (e2, c3)) in
          let* '(e4, c5) := write_args name (getpos c0) e3 c4 in
          let '(e5, c6) := read_args name e4 c5 in
          let '(e6, c7) := shift_args name e5 c6 in
          let '(e7, c8) := (if has_flag (T "EDITCMD") x && negb (ea_usefilter e6)
                            then parse_argcmd e6 c7 else (e6, c7)) in
          dispatch (mkEc e7 line c0 c3 x) (with_cur c8 st2)
      end
  end.

(** go/vimlparser.go:412-434  parse_one_cmd (parse_hashbang is :871-873). *)
Definition parse_one_cmd (neovim : bool) (st : pstate) : outcome pstate :=
  if text_eqb (peekn 2 (cur st)) (T "#!") then
    Ok (with_cur (snd (get (snd (getn_all (cur st))))) st)
  else
    let c := skip_white_and_colon (cur st) in
    let st1 := with_cur c st in
    match peek1 c with
    | None => Ok (with_cur (snd (get c)) st1)
    | Some r =>
      if r =? C """" then
        let* st2 := parse_comment st1 in Ok (with_cur (snd (get (cur st2))) st2)
      else
        let* '(ms, c1) := parse_command_modifiers c in
        let* '(rs, c2) := parse_range c1 in
        let e := ea_set_range rs (ea_set_mods ms (ea_set_line (getpos c) ea0)) in
        let* st2 := parse_command neovim e c (with_cur c2 st1) in
        parse_trail st2
    end.

(** go/vimlparser.go:400-402: the loop of parse. *)
Fixpoint cmds_loop (neovim : bool) (n : nat) (st : pstate) : outcome pstate :=
  match n with
  | O => OutOfFuel
  | S n' =>
    if is_eof (cur st) then Ok st
    else let* st1 := parse_one_cmd neovim st in cmds_loop neovim n' st1
  end.

(** go/vimlparser.go:395-410  parse. *)
Definition vim_parse (neovim : bool) (c : cursor) : outcome vnode :=
  let* st := cmds_loop neovim (S (clen c)) (mkSt c [mkFrame FTop (getpos c) ea0 []] []) in
  let* f := top_frame st in
  if is_function (f_kind f) then
    raise (T "E126: Missing :endfunction:    TOPLEVEL") (getpos (cur st))
  else
    let* _ := check_missing_if_try_loops (T "TOPLEVEL") (getpos (cur st)) f in
    Ok (VToplevel (f_pos f) (f_body f)).
