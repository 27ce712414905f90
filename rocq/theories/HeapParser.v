(** The command parser with the node store of the Go code: nodes are objects behind
    pointers, a block is put into the tree when it is opened and is filled while it is the
    innermost one.  The functions that only move the reader are those of [CmdParser]. *)
From Verif Require Import Base CharClass Reader Vnode Tokenizer ExprParser CmdTable CmdParser.

(** * The store *)

(** The fields of a block node that are set once, when it is made (go/type.go:33-71). *)
Inductive hkind :=
| HTop
| HFunction (left : vnode) (rlist default_args : list vnode) (attr : funcattr)
| HIf (cond : vnode)
| HElseif (cond : vnode)
| HElse
| HWhile (cond : vnode)
| HFor (left : option vnode) (list_ : list vnode) (rest : option vnode) (right : vnode)
| HTry
| HCatch (pattern : text)
| HFinally.

(** An element of a body: a node that is complete when it is added, or a pointer to a
    block. *)
Inductive child := Leaf (v : vnode) | Ptr (a : nat).

(** A block node (go/type.go:33-71  VimNode): what it was made with, and the fields that
    are assigned later.  [n_end] stands for endfunction, endif, endwhile, endfor and
    endtry, of which a node uses at most one. *)
Record hnode := mkNode {
  n_kind : hkind; n_pos : pos; n_ea : exarg;
  n_body : list child;
  n_elseif : list nat; n_else : option nat;
  n_catch : list nat; n_finally : option nat;
  n_end : option vnode }.

(** go/type.go:96-105  Node: all the fields that are assigned later are empty. *)
Definition new_node (k : hkind) (p : pos) (e : exarg) : hnode :=
  mkNode k p e [] [] None [] None None.

(** self.context[0].body = append(self.context[0].body, node) and the like
    (go/vimlparser.go:361-363, 1559, 1573, 1687, 1701, 1587). *)
Definition put_body (x : child) (n : hnode) : hnode :=
  mkNode (n_kind n) (n_pos n) (n_ea n) (n_body n ++ [x]) (n_elseif n) (n_else n)
         (n_catch n) (n_finally n) (n_end n).
Definition put_elseif (a : nat) (n : hnode) : hnode :=
  mkNode (n_kind n) (n_pos n) (n_ea n) (n_body n) (n_elseif n ++ [a]) (n_else n)
         (n_catch n) (n_finally n) (n_end n).
Definition put_else (a : nat) (n : hnode) : hnode :=
  mkNode (n_kind n) (n_pos n) (n_ea n) (n_body n) (n_elseif n) (Some a)
         (n_catch n) (n_finally n) (n_end n).
Definition put_catch (a : nat) (n : hnode) : hnode :=
  mkNode (n_kind n) (n_pos n) (n_ea n) (n_body n) (n_elseif n) (n_else n)
         (n_catch n ++ [a]) (n_finally n) (n_end n).
Definition put_finally (a : nat) (n : hnode) : hnode :=
  mkNode (n_kind n) (n_pos n) (n_ea n) (n_body n) (n_elseif n) (n_else n)
         (n_catch n) (Some a) (n_end n).
Definition put_end (v : vnode) (n : hnode) : hnode :=
  mkNode (n_kind n) (n_pos n) (n_ea n) (n_body n) (n_elseif n) (n_else n)
         (n_catch n) (n_finally n) (Some v).

(** The store after the object at [a] has been changed. *)
Fixpoint change (a : nat) (f : hnode -> hnode) (s : list hnode) : list hnode :=
  match s, a with
  | [], _ => []
  | n :: t, O => f n :: t
  | n :: t, S a' => n :: change a' f t
  end.

(** * The parser state *)

(** go/type.go:108-115  VimLParser: [h_ctx] holds pointers, [h_store] the nodes they point
    to.  The current ExArg is passed separately. *)
Record hstate := mkHs {
  h_cur : cursor; h_ctx : list nat; h_store : list hnode; h_cache : list (text * option cmd) }.

(** The reader has moved; nothing else changes. *)
Definition h_with_cur (c : cursor) (st : hstate) : hstate :=
  mkHs c (h_ctx st) (h_store st) (h_cache st).

(** self.context[0]; an empty context is an index panic in Go. *)
Definition h_top (st : hstate) : outcome hnode :=
  match h_ctx st with
  | a :: _ => match nth_error (h_store st) a with Some n => Ok n | None => Panic PNil end
  | [] => Panic PIndex
  end.

(** An assignment to a field of self.context[0]. *)
Definition h_change_top (f : hnode -> hnode) (st : hstate) : outcome hstate :=
  match h_ctx st with
  | a :: _ => Ok (mkHs (h_cur st) (h_ctx st) (change a f (h_store st)) (h_cache st))
  | [] => Panic PIndex
  end.

(** go/vimlparser.go:361-363  add_node, of a node that is complete. *)
Definition h_add_node (v : vnode) (st : hstate) : outcome hstate :=
  h_change_top (put_body (Leaf v)) st.

(** go/type.go:96-105  Node. *)
Definition h_new (n : hnode) (st : hstate) : nat * hstate :=
  (length (h_store st),
   mkHs (h_cur st) (h_ctx st) (h_store st ++ [n]) (h_cache st)).

(** go/type.go:117-119  push_context. *)
Definition h_push (a : nat) (st : hstate) : hstate :=
  mkHs (h_cur st) (a :: h_ctx st) (h_store st) (h_cache st).

(** go/type.go:121-123  pop_context. *)
Definition h_pop (st : hstate) : outcome hstate :=
  match h_ctx st with
  | _ :: r => Ok (mkHs (h_cur st) r (h_store st) (h_cache st))
  | [] => Panic PIndex
  end.

(** A node is made, added to the body of the innermost block and becomes the innermost
    block itself: go/vimlparser.go:1540-1545 and alike. *)
Definition h_open_block (k : hkind) (p : pos) (e : exarg) (st : hstate) : outcome hstate :=
  let '(a, st1) := h_new (new_node k p e) st in
  let* st2 := h_change_top (put_body (Ptr a)) st1 in
  Ok (h_push a st2).

(** The same for :elseif, :else, :catch and :finally, which are not added to the body:
    go/vimlparser.go:1555-1560, 1570-1574, 1680-1688, 1698-1702. *)
Definition h_open_part (put : nat -> hnode -> hnode) (k : hkind) (p : pos) (e : exarg)
  (st : hstate) : outcome hstate :=
  let '(a, st1) := h_new (new_node k p e) st in
  let* st2 := h_change_top (put a) st1 in
  Ok (h_push a st2).

(** self.context[0].end... = node; self.pop_context(): go/vimlparser.go:1330-1331 and
    alike. *)
Definition h_end_block (v : vnode) (st : hstate) : outcome hstate :=
  let* st1 := h_change_top (put_end v) st in h_pop st1.

(** The tests of self.context[0].type_ (go/vimlparser.go:365-393, 1318-1717). *)
Definition hk_if_part (k : hkind) : bool :=
  match k with HIf _ | HElseif _ | HElse => true | _ => false end.
Definition hk_try_part (k : hkind) : bool :=
  match k with HTry | HCatch _ | HFinally => true | _ => false end.
Definition hk_if (k : hkind) : bool := match k with HIf _ => true | _ => false end.
Definition hk_try (k : hkind) : bool := match k with HTry => true | _ => false end.
Definition hk_function (k : hkind) : bool := match k with HFunction _ _ _ _ => true | _ => false end.
Definition hk_while (k : hkind) : bool := match k with HWhile _ => true | _ => false end.
Definition hk_for (k : hkind) : bool := match k with HFor _ _ _ _ => true | _ => false end.

(** go/vimlparser.go:350-359  find_context(t) != -1. *)
Definition h_in_context (f : hkind -> bool) (st : hstate) : bool :=
  existsb (fun a => match nth_error (h_store st) a with
                    | Some n => f (n_kind n) | None => false end) (h_ctx st).

(** go/vimlparser.go:371-393  check_missing_endif, endtry, endwhile, endfor. *)
Definition h_check_missing (ends : text) (p : pos) (n : hnode) : outcome unit :=
  if hk_if_part (n_kind n) then raise (T "E171: Missing :endif:    " ++ ends) p
  else if hk_try_part (n_kind n) then raise (T "E600: Missing :endtry:    " ++ ends) p
  else if hk_while (n_kind n) then raise (T "E170: Missing :endwhile:    " ++ ends) p
  else if hk_for (n_kind n) then raise (T "E170: Missing :endfor:    " ++ ends) p
  else Ok tt.

(** * The tree behind a pointer *)

(** The pointers in the fields of an object. *)
Definition targets (n : hnode) : list nat :=
  flat_map (fun x => match x with Leaf _ => [] | Ptr a => [a] end) (n_body n) ++ n_elseif n ++
  (match n_else n with Some a => [a] | None => [] end) ++ n_catch n ++
  (match n_finally n with Some a => [a] | None => [] end).

(** The node with its sub-blocks in place of the pointers. *)
Definition assemble (n : hnode) (body es : list vnode) (el : option vnode) (cs : list vnode)
  (fi : option vnode) : vnode :=
  match n_kind n with
  | HTop => VToplevel (n_pos n) body
  | HFunction l rl da at_ => VFunction (n_pos n) (n_ea n) body l rl da at_ (n_end n)
  | HIf c => VIf (n_pos n) (n_ea n) body c es el (n_end n)
  | HElseif c => VElseif (n_pos n) (n_ea n) body c
  | HElse => VElse (n_pos n) (n_ea n) body
  | HWhile c => VWhile (n_pos n) (n_ea n) body c (n_end n)
  | HFor l ls rs r => VFor (n_pos n) (n_ea n) body l ls rs r (n_end n)
  | HTry => VTry (n_pos n) (n_ea n) body cs fi (n_end n)
  | HCatch pat => VCatch (n_pos n) (n_ea n) body pat
  | HFinally => VFinally (n_pos n) (n_ea n) body
  end.

(** The nodes behind the pointers of a list or of an optional field. *)
Fixpoint follow_body (f : nat -> option vnode) (l : list child) : option (list vnode) :=
  match l with
  | [] => Some []
  | x :: t =>
    match (match x with Leaf v => Some v | Ptr a => f a end), follow_body f t with
    | Some v, Some vs => Some (v :: vs)
    | _, _ => None
    end
  end.
Fixpoint follow_list (f : nat -> option vnode) (l : list nat) : option (list vnode) :=
  match l with
  | [] => Some []
  | a :: t => match f a, follow_list f t with Some v, Some vs => Some (v :: vs) | _, _ => None end
  end.
Definition follow_opt (f : nat -> option vnode) (o : option nat) : option (option vnode) :=
  match o with
  | None => Some None
  | Some a => match f a with Some v => Some (Some v) | None => None end
  end.

(** Follows the pointers from [a], at most [n] deep: the recursion of newAstNode
    (go/export.go) over a node and its fields.  None: a pointer to nothing, or deeper. *)
Fixpoint follow (n : nat) (s : list hnode) (a : nat) : option vnode :=
  match n with
  | O => None
  | S n' =>
    match nth_error s a with
    | None => None
    | Some d =>
      match follow_body (follow n' s) (n_body d), follow_list (follow n' s) (n_elseif d),
            follow_opt (follow n' s) (n_else d), follow_list (follow n' s) (n_catch d),
            follow_opt (follow n' s) (n_finally d) with
      | Some body, Some es, Some el, Some cs, Some fi => Some (assemble d body es el cs fi)
      | _, _, _, _, _ => None
      end
    end
  end.

(** The tree behind [a]; no chain of pointers without a repetition is longer than the
    store. *)
Definition tree_at (s : list hnode) (a : nat) : outcome vnode :=
  match follow (S (length s)) s a with Some v => Ok v | None => Panic PNil end.

(** * The commands *)

(** go/vimlparser.go:948-958  parse_comment. *)
Definition h_parse_comment (st : hstate) : outcome hstate :=
  let c := h_cur st in
  let '(x, c1) := get c in
  if negb (ch_is x (C """")) then raise (T "unexpected character: " ++ ch_text x) (getpos c)
  else
    let '(s, c2) := getn_all c1 in
    h_add_node (VComment (getpos c) s) (h_with_cur c2 st).

(** go/vimlparser.go:960-975  parse_trail. *)
Definition h_parse_trail (st0 : hstate) : outcome hstate :=
  let c := skip_white (h_cur st0) in
  let st := h_with_cur c st0 in
  match peek c with
  | CEof => Ok st
  | CEol => Ok (h_with_cur (snd (get c)) st)
  | CR r =>
    if r =? C "|" then Ok (h_with_cur (snd (get c)) st)
    else if r =? C """" then
      let* st1 := h_parse_comment st in Ok (h_with_cur (snd (get (h_cur st1))) st1)
    else raise (T "E488: Trailing characters: " ++ [r]) (getpos c)
  end.

(** go/vimlparser.go:812-868  find_command. *)
Definition h_find_command (neovim : bool) (st : hstate) : option cmd * hstate :=
  let '(name, c1) := read_cmd_name (h_cur st) in
  if is_nil name then (None, h_with_cur c1 st)
  else
    match assoc_text name (h_cache st) with
    | Some r => (r, h_with_cur c1 st)
    | None =>
      let found := lookup_builtin neovim name in
      let user := match found with
                  | None => starts_upper name
                  | Some x => text_eqb (c_name x) (T "Print") && starts_upper name
                  end in
      if user then
        let '(s, c2) := read_alnum c1 in
        let r := Some (user_cmd (name ++ s)) in
        (r, mkHs c2 (h_ctx st) (h_store st) ((name ++ s, r) :: h_cache st))
      else (found, mkHs c1 (h_ctx st) (h_store st) ((name, found) :: h_cache st))
    end.

(** go/vimlparser.go:987-1011  parse_cmd_common. *)
Definition h_parse_cmd_common (k : ectx) (st : hstate) : outcome hstate :=
  let* '(e, c1) :=
    (if has_flag (T "TRLBAR") (ec_x k) && negb (ea_usefilter (ec_ea k))
     then separate_nextcmd (ec_x k) (p_i (getpos (ec_arg k))) (h_cur st)
     else let c' := snd (getn_all (h_cur st)) in Ok (c', c')) in
  h_add_node (VExcmd (cmdpos k) (ec_ea k) (getstr (ec_line k) e)) (h_with_cur c1 st).

(** go/vimlparser.go:1085-1106  parse_cmd_append; :1108-1110 parse_cmd_insert. *)
Definition h_parse_cmd_append (k : ectx) (st : hstate) : outcome hstate :=
  let '(l, c1) := readline (ec_line k) in
  let* '(ls, c2) := until_marker (S (clen c1)) (T ".") c1 in
  h_add_node (VExcmd (cmdpos k) (ec_ea k) (join_lines (l :: ls))) (h_with_cur c2 st).

(** go/vimlparser.go:1112-1128  parse_cmd_loadkeymap. *)
Definition h_parse_cmd_loadkeymap (k : ectx) (st : hstate) : outcome hstate :=
  let '(l, c1) := readline (ec_line k) in
  let* '(ls, c2) := read_all_lines (S (clen c1)) c1 in
  h_add_node (VExcmd (cmdpos k) (ec_ea k) (join_lines (l :: ls))) (h_with_cur c2 st).

(** go/vimlparser.go:1130-1165  parse_cmd_lua (also mzscheme, perl, python, python3,
    ruby, tcl, :1167-1189). *)
Definition h_parse_cmd_lua (k : ectx) (st : hstate) : outcome hstate :=
  let c := skip_white (h_cur st) in
  if text_eqb (peekn 2 c) (T "<<") then
    let m := fst (readline (skip_white (snd (getn 2 c)))) in
    let marker := if is_nil m then T "." else m in
    let '(l, c1) := getn_all (ec_line k) in
    let c2 := snd (get c1) in
    let* '(ls, c3) := until_marker (S (clen c2)) marker c2 in
    h_add_node (VExcmd (cmdpos k) (ec_ea k) (join_lines (l :: ls))) (h_with_cur c3 st)
  else
    let '(l, c1) := getn_all (ec_line k) in
    h_add_node (VExcmd (cmdpos k) (ec_ea k) l) (h_with_cur c1 st).

(** go/vimlparser.go:1191-1196  parse_cmd_finish. *)
Definition h_parse_cmd_finish (k : ectx) (st : hstate) : outcome hstate :=
  let* st1 := h_parse_cmd_common k st in
  let* f := h_top st1 in
  match n_kind f with
  | HTop => Ok (h_with_cur (seek_end0 (h_cur st1)) st1)
  | _ => Ok st1
  end.

(** go/vimlparser.go:1203-1316  parse_cmd_function. *)
Definition h_parse_cmd_function (k : ectx) (st : hstate) : outcome hstate :=
  let c := skip_white (h_cur st) in
  if ends_excmds (peek c) then h_parse_cmd_common k st
  else if o_is (peek1 c) (C "/") then h_parse_cmd_common k st
  else
    let* '(lft, c1) := parse_lvalue_func c in
    let c2 := skip_white c1 in
    let* _ := (match lft with
               | VIdent p s =>
                 let* bad := bad_function_name s in
                 if bad : bool then
                   raise (T "E128: Function name must start with a capital or contain a colon: " ++ s) p
                 else Ok tt
               | _ => Ok tt
               end) in
    if negb (o_is (peek1 c2) (C "(")) then h_parse_cmd_common k st
    else
      let c3 := snd (getn 1 c2) in
      let* '(t, c4) := tget c3 in
      let* '(rl, da, c5) :=
        (if tok_eqb (tk t) KPClose then Ok ([], [], c4)
         else params_loop (S (clen c3)) [] false c3) in
      let* '(a, c6) := attr_loop (S (clen c5)) (mkAttr false false false false) c5 in
      h_open_block (HFunction lft rl da a) (cmdpos k) (ec_ea k) (h_with_cur c6 st).

(** go/vimlparser.go:1318-1332  parse_cmd_endfunction. *)
Definition h_parse_cmd_endfunction (k : ectx) (st : hstate) : outcome hstate :=
  let* f := h_top st in
  let* _ := h_check_missing (T "ENDFUNCTION") (cmdpos k) f in
  if negb (hk_function (n_kind f)) then
    raise (T "E193: :endfunction not inside a function") (cmdpos k)
  else
    h_end_block (VEndfunction (cmdpos k) (ec_ea k)) (h_with_cur (snd (getn_all (h_cur st))) st).

(** go/vimlparser.go:1334-1340  parse_cmd_delfunction. *)
Definition h_parse_cmd_delfunction (k : ectx) (st : hstate) : outcome hstate :=
  let* '(v, c1) := parse_lvalue_func (h_cur st) in
  h_add_node (VDelfunction (cmdpos k) (ec_ea k) v) (h_with_cur c1 st).

(** go/vimlparser.go:1342-1356  parse_cmd_return. *)
Definition h_parse_cmd_return (k : ectx) (st : hstate) : outcome hstate :=
  if negb (h_in_context hk_function st) then
    raise (T "E133: :return not inside a function") (cmdpos k)
  else
    let c := skip_white (h_cur st) in
    if ch_is (peek c) (C """") || negb (ends_excmds (peek c)) then
      let* '(v, c1) := parse_expr c in
      h_add_node (VReturn (cmdpos k) (ec_ea k) (Some v)) (h_with_cur c1 st)
    else h_add_node (VReturn (cmdpos k) (ec_ea k) None) (h_with_cur c st).

(** go/vimlparser.go:1358-1372  parse_cmd_call. *)
Definition h_parse_cmd_call (k : ectx) (st : hstate) : outcome hstate :=
  let c := skip_white (h_cur st) in
  if ends_excmds (peek c) then raise (T "E471: Argument required") (getpos c)
  else
    let* '(v, c1) := parse_expr c in
    match v with
    | VCall _ _ _ => h_add_node (VExcall (cmdpos k) (ec_ea k) v) (h_with_cur c1 st)
    | _ => raise (T "Not an function call") (vpos v)
    end.

(** go/vimlparser.go:1374-1416  parse_heredoc. A trailing comment is added to the
    context by parse_trail. *)
Definition h_parse_heredoc (k : ectx) (st : hstate) : outcome (vnode * hstate) :=
  let* '(ws, m, c1) := heredoc_words (S (clen (h_cur st))) (h_cur st) in
  if is_nil m then raise (T "E172: Missing marker") (getpos c1)
  else
    let* st1 := h_parse_trail (h_with_cur c1 st) in
    let* '(ls, c2) := heredoc_lines (S (clen (h_cur st1))) m (h_cur st1) in
    Ok (VHeredoc (cmdpos k) ws m ls, h_with_cur c2 st1).

(** go/vimlparser.go:1418-1470  parse_cmd_let. *)
Definition h_parse_cmd_let (k : ectx) (st : hstate) : outcome hstate :=
  let c := skip_white (h_cur st) in
  if ends_excmds (peek c) then h_parse_cmd_common k st
  else
    let* '(l, ls, rs, c1) := parse_lhs parse_lvalue c in
    let c2 := skip_white c1 in
    let s1 := peekn 1 c2 in
    let s2 := (let s := peekn 2 c2 in
               if text_eqb s (T "..") || text_eqb s (T "=<") then peekn 3 c2 else s) in
    if ends_excmds1 (peek1 c2) ||
       (negb (is_assign_op s2) && negb (text_eqb s2 (T "=<<")) && negb (text_eqb s1 (T "=")))
    then h_parse_cmd_common k st
    else if is_assign_op s2 then
      let* '(v, c3) := parse_expr (snd (getn (length s2) c2)) in
      h_add_node (VLet (cmdpos k) (ec_ea k) s2 l ls rs (Some v)) (h_with_cur c3 st)
    else if text_eqb s2 (T "=<<") then
      let* '(h, st1) := h_parse_heredoc k (h_with_cur (skip_white (snd (getn (length s2) c2))) st) in
      h_add_node (VLet (cmdpos k) (ec_ea k) s2 l ls rs (Some h)) st1
    else if text_eqb s1 (T "=") then
      let* '(v, c3) := parse_expr (snd (getn 1 c2)) in
      h_add_node (VLet (cmdpos k) (ec_ea k) s1 l ls rs (Some v)) (h_with_cur c3 st)
    else Panic PNotReached.

(** go/vimlparser.go:1472-1501  parse_cmd_const. *)
Definition h_parse_cmd_const (k : ectx) (st : hstate) : outcome hstate :=
  let c := skip_white (h_cur st) in
  if ends_excmds (peek c) then h_parse_cmd_common k st
  else
    let* '(l, ls, rs, c1) := parse_lhs parse_constlvalue c in
    let c2 := skip_white c1 in
    if ends_excmds1 (peek1 c2) || negb (o_is (peek1 c2) (C "=")) then h_parse_cmd_common k st
    else
      let* '(v, c3) := parse_expr (snd (getn 1 c2)) in
      h_add_node (VConst (cmdpos k) (ec_ea k) (T "=") l ls rs (Some v)) (h_with_cur c3 st).

(** go/vimlparser.go:1503-1509  parse_cmd_unlet. *)
Definition h_parse_cmd_unlet (k : ectx) (st : hstate) : outcome hstate :=
  let* '(vs, c1) := parse_lvaluelist (h_cur st) in
  h_add_node (VUnlet (cmdpos k) (ec_ea k) vs) (h_with_cur c1 st).

(** go/vimlparser.go:1511-1523  parse_cmd_lockvar ([mk] = VLockvar) and :1525-1537
    parse_cmd_unlockvar ([mk] = VUnlockvar). *)
Definition h_parse_cmd_lock (mk : pos -> exarg -> Z -> list vnode -> vnode)
  (k : ectx) (st : hstate) : outcome hstate :=
  let c := skip_white (h_cur st) in
  let* '(d, c1) :=
    (if o_in isdigit (peek1 c) then
       let '(s, c') := read_digit c in let* z := str2nr s in Ok (z, c')
     else Ok (0%Z, c)) in
  let* '(vs, c2) := parse_lvaluelist c1 in
  h_add_node (mk (cmdpos k) (ec_ea k) d vs) (h_with_cur c2 st).

(** go/vimlparser.go:1539-1546  parse_cmd_if. *)
Definition h_parse_cmd_if (k : ectx) (st : hstate) : outcome hstate :=
  let* '(v, c1) := parse_expr (h_cur st) in
  h_open_block (HIf v) (cmdpos k) (ec_ea k) (h_with_cur c1 st).

(** go/vimlparser.go:1548-1561  parse_cmd_elseif. *)
Definition h_parse_cmd_elseif (k : ectx) (st : hstate) : outcome hstate :=
  let* f := h_top st in
  match n_kind f with
  | HIf _ | HElseif _ =>
    let* st1 := (if hk_if (n_kind f) then Ok st else h_pop st) in
    let* '(v, c1) := parse_expr (h_cur st1) in
    h_open_part put_elseif (HElseif v) (cmdpos k) (ec_ea k) (h_with_cur c1 st1)
  | _ => raise (T "E582: :elseif without :if") (cmdpos k)
  end.

(** go/vimlparser.go:1563-1575  parse_cmd_else. *)
Definition h_parse_cmd_else (k : ectx) (st : hstate) : outcome hstate :=
  let* f := h_top st in
  match n_kind f with
  | HIf _ | HElseif _ =>
    let* st1 := (if hk_if (n_kind f) then Ok st else h_pop st) in
    h_open_part put_else HElse (cmdpos k) (ec_ea k) st1
  | _ => raise (T "E581: :else without :if") (cmdpos k)
  end.

(** go/vimlparser.go:1577-1589  parse_cmd_endif. *)
Definition h_parse_cmd_endif (k : ectx) (st : hstate) : outcome hstate :=
  let* f := h_top st in
  if negb (hk_if_part (n_kind f)) then raise (T "E580: :endif without :if") (cmdpos k)
  else
    let* st1 := (if hk_if (n_kind f) then Ok st else h_pop st) in
    h_end_block (VEndif (cmdpos k) (ec_ea k)) st1.

(** go/vimlparser.go:1591-1599  parse_cmd_while. *)
Definition h_parse_cmd_while (k : ectx) (st : hstate) : outcome hstate :=
  let* '(v, c1) := parse_expr (h_cur st) in
  h_open_block (HWhile v) (cmdpos k) (ec_ea k) (h_with_cur c1 st).

(** go/vimlparser.go:1601-1610  parse_cmd_endwhile. *)
Definition h_parse_cmd_endwhile (k : ectx) (st : hstate) : outcome hstate :=
  let* f := h_top st in
  if negb (hk_while (n_kind f)) then raise (T "E588: :endwhile without :while") (cmdpos k)
  else h_end_block (VEndwhile (cmdpos k) (ec_ea k)) st.

(** go/vimlparser.go:1612-1630  parse_cmd_for. *)
Definition h_parse_cmd_for (k : ectx) (st : hstate) : outcome hstate :=
  let* '(l, ls, rs, c1) := parse_lhs parse_lvalue (h_cur st) in
  let c2 := skip_white c1 in
  let '(s, c3) := read_alpha c2 in
  if negb (text_eqb s (T "in")) then raise (T "Missing ""in"" after :for") (getpos c2)
  else
    let* '(v, c4) := parse_expr c3 in
    h_open_block (HFor l ls rs v) (cmdpos k) (ec_ea k) (h_with_cur c4 st).

(** go/vimlparser.go:1632-1641  parse_cmd_endfor. *)
Definition h_parse_cmd_endfor (k : ectx) (st : hstate) : outcome hstate :=
  let* f := h_top st in
  if negb (hk_for (n_kind f)) then raise (T "E588: :endfor without :for") (cmdpos k)
  else h_end_block (VEndfor (cmdpos k) (ec_ea k)) st.

(** go/vimlparser.go:1643-1651  parse_cmd_continue, :1653-1661 parse_cmd_break. *)
Definition h_parse_cmd_continue (k : ectx) (st : hstate) : outcome hstate :=
  if negb (h_in_context hk_while st) && negb (h_in_context hk_for st)
  then raise (T "E586: :continue without :while or :for") (cmdpos k)
  else h_add_node (VContinue (cmdpos k) (ec_ea k)) st.

Definition h_parse_cmd_break (k : ectx) (st : hstate) : outcome hstate :=
  if negb (h_in_context hk_while st) && negb (h_in_context hk_for st)
  then raise (T "E587: :break without :while or :for") (cmdpos k)
  else h_add_node (VBreak (cmdpos k) (ec_ea k)) st.

(** go/vimlparser.go:1663-1669  parse_cmd_try. *)
Definition h_parse_cmd_try (k : ectx) (st : hstate) : outcome hstate :=
  h_open_block HTry (cmdpos k) (ec_ea k) st.

(** go/vimlparser.go:1671-1689  parse_cmd_catch. *)
Definition h_parse_cmd_catch (k : ectx) (st : hstate) : outcome hstate :=
  let* f := h_top st in
  match n_kind f with
  | HFinally => raise (T "E604: :catch after :finally") (cmdpos k)
  | HTry | HCatch _ =>
    let* st1 := (if hk_try (n_kind f) then Ok st else h_pop st) in
    let c := skip_white (h_cur st1) in
    let* '(pat, c1) :=
      (if ends_excmds (peek c) then Ok ([], c)
       else match get c with
            | (CR d, c') => let* '(s, _, c'') := parse_pattern d c' in Ok (s, c'')
            | (_, c') => Ok ([], c')
            end) in
    h_open_part put_catch (HCatch pat) (cmdpos k) (ec_ea k) (h_with_cur c1 st1)
  | _ => raise (T "E603: :catch without :try") (cmdpos k)
  end.

(** go/vimlparser.go:1691-1703  parse_cmd_finally. *)
Definition h_parse_cmd_finally (k : ectx) (st : hstate) : outcome hstate :=
  let* f := h_top st in
  match n_kind f with
  | HTry | HCatch _ =>
    let* st1 := (if hk_try (n_kind f) then Ok st else h_pop st) in
    h_open_part put_finally HFinally (cmdpos k) (ec_ea k) st1
  | _ => raise (T "E606: :finally without :try") (cmdpos k)
  end.

(** go/vimlparser.go:1705-1717  parse_cmd_endtry. *)
Definition h_parse_cmd_endtry (k : ectx) (st : hstate) : outcome hstate :=
  let* f := h_top st in
  if negb (hk_try_part (n_kind f)) then raise (T "E602: :endtry without :try") (cmdpos k)
  else
    let* st1 := (if hk_try (n_kind f) then Ok st else h_pop st) in
    h_end_block (VEndtry (cmdpos k) (ec_ea k)) st1.

(** go/vimlparser.go:1719-1725  parse_cmd_throw, :1727-1733 parse_cmd_eval. *)
Definition h_parse_cmd_throw (k : ectx) (st : hstate) : outcome hstate :=
  let* '(v, c1) := parse_expr (h_cur st) in
  h_add_node (VThrow (cmdpos k) (ec_ea k) v) (h_with_cur c1 st).

Definition h_parse_cmd_eval (k : ectx) (st : hstate) : outcome hstate :=
  let* '(v, c1) := parse_expr (h_cur st) in
  h_add_node (VEval (cmdpos k) (ec_ea k) v) (h_with_cur c1 st).

(** go/vimlparser.go:1735-1749, 1762-1776  parse_cmd_echo, echon, echomsg, echoerr. *)
Definition h_parse_cmd_echo (kind : echokind) (k : ectx) (st : hstate) : outcome hstate :=
  let* '(vs, c1) := parse_exprlist (h_cur st) in
  h_add_node (VEcho kind (cmdpos k) (ec_ea k) vs) (h_with_cur c1 st).

(** go/vimlparser.go:1751-1760  parse_cmd_echohl. *)
Definition h_parse_cmd_echohl (k : ectx) (st : hstate) : outcome hstate :=
  let '(s, c1) := read_while (fun r => negb (ends_excmds (CR r))) (h_cur st) in
  h_add_node (VEchohl (cmdpos k) (ec_ea k) s) (h_with_cur c1 st).

(** go/vimlparser.go:1778-1784  parse_cmd_execute. *)
Definition h_parse_cmd_execute (k : ectx) (st : hstate) : outcome hstate :=
  let* '(vs, c1) := parse_exprlist (h_cur st) in
  h_add_node (VExecute (cmdpos k) (ec_ea k) vs) (h_with_cur c1 st).

(** go/vimlparser.go:1937-1958  parse_wincmd. *)
Definition h_parse_wincmd (k : ectx) (st : hstate) : outcome hstate :=
  let '(s, c1) := getn 1 (h_cur st) in
  match s with
  | [] => raise (T "E471: Argument required") (getpos c1)
  | r :: _ =>
    let* c2 :=
      (if (r =? C "g") || (r =? 7) then
         let '(s2, c') := getn 1 c1 in
         match s2 with
         | [] => raise (T "E474: Invalid Argument") (getpos c')
         | r2 :: _ => if iswhite r2 then raise (T "E474: Invalid Argument") (getpos c') else Ok c'
         end
       else Ok c1) in
    let c3 := skip_white c2 in
    if negb (ends_excmds (peek c3)) then raise (T "E474: Invalid Argument") (getpos c3)
    else h_add_node (VExcmd (cmdpos k) (ec_ea k) (getstr (ec_line k) c2)) (h_with_cur c3 st)
  end.

(** go/vimlparser.go:1961-1982  parse_cmd_syntax. *)
Definition h_parse_cmd_syntax (k : ectx) (st : hstate) : outcome hstate :=
  let* c1 := syntax_loop (S (clen (h_cur st))) (h_cur st) in
  h_add_node (VExcmd (cmdpos k) (ec_ea k) (getstr (ec_line k) c1)) (h_with_cur c1 st).

(** The Go names of the command functions, with what they do. *)
Definition h_parser_table : list (text * (ectx -> hstate -> outcome hstate)) := [
  (T "parse_cmd_append", h_parse_cmd_append);
  (T "parse_cmd_break", h_parse_cmd_break);
  (T "parse_cmd_call", h_parse_cmd_call);
  (T "parse_cmd_catch", h_parse_cmd_catch);
  (T "parse_cmd_common", h_parse_cmd_common);
  (T "parse_cmd_continue", h_parse_cmd_continue);
  (T "parse_cmd_delfunction", h_parse_cmd_delfunction);
  (T "parse_cmd_echo", h_parse_cmd_echo EEcho);
  (T "parse_cmd_echoerr", h_parse_cmd_echo EEchoerr);
  (T "parse_cmd_echohl", h_parse_cmd_echohl);
  (T "parse_cmd_echomsg", h_parse_cmd_echo EEchomsg);
  (T "parse_cmd_echon", h_parse_cmd_echo EEchon);
  (T "parse_cmd_else", h_parse_cmd_else);
  (T "parse_cmd_elseif", h_parse_cmd_elseif);
  (T "parse_cmd_endfor", h_parse_cmd_endfor);
  (T "parse_cmd_endfunction", h_parse_cmd_endfunction);
  (T "parse_cmd_endif", h_parse_cmd_endif);
  (T "parse_cmd_endtry", h_parse_cmd_endtry);
  (T "parse_cmd_endwhile", h_parse_cmd_endwhile);
  (T "parse_cmd_execute", h_parse_cmd_execute);
  (T "parse_cmd_finally", h_parse_cmd_finally);
  (T "parse_cmd_finish", h_parse_cmd_finish);
  (T "parse_cmd_for", h_parse_cmd_for);
  (T "parse_cmd_function", h_parse_cmd_function);
  (T "parse_cmd_if", h_parse_cmd_if);
  (T "parse_cmd_insert", h_parse_cmd_append);
  (T "parse_cmd_let", h_parse_cmd_let);
  (T "parse_cmd_const", h_parse_cmd_const);
  (T "parse_cmd_loadkeymap", h_parse_cmd_loadkeymap);
  (T "parse_cmd_lockvar", h_parse_cmd_lock VLockvar);
  (T "parse_cmd_lua", h_parse_cmd_lua);
  (T "parse_cmd_mzscheme", h_parse_cmd_lua);
  (T "parse_cmd_perl", h_parse_cmd_lua);
  (T "parse_cmd_python", h_parse_cmd_lua);
  (T "parse_cmd_python3", h_parse_cmd_lua);
  (T "parse_cmd_return", h_parse_cmd_return);
  (T "parse_cmd_ruby", h_parse_cmd_lua);
  (T "parse_cmd_tcl", h_parse_cmd_lua);
  (T "parse_cmd_throw", h_parse_cmd_throw);
  (T "parse_cmd_eval", h_parse_cmd_eval);
  (T "parse_cmd_try", h_parse_cmd_try);
  (T "parse_cmd_unlet", h_parse_cmd_unlet);
  (T "parse_cmd_unlockvar", h_parse_cmd_lock VUnlockvar);
  (T "parse_cmd_usercmd", h_parse_cmd_common);
  (T "parse_cmd_while", h_parse_cmd_while);
  (T "parse_wincmd", h_parse_wincmd);
  (T "parse_cmd_syntax", h_parse_cmd_syntax) ].

(** go/vimlparser.go:710-810  _parse_command. "parse_cmd_modifier_range" (:773) is in
    the Go chain but in no table entry. *)
Definition h_dispatch (k : ectx) (st : hstate) : outcome hstate :=
  match assoc_text (c_parser (ec_x k)) h_parser_table with
  | Some f => f k st
  | None => Panic PUnknownParser
  end.

(** go/vimlparser.go:978-984  parse_cmd_modifier_range. *)
Definition h_parse_cmd_modifier_range (e : exarg) (line : cursor) (st : hstate) : outcome hstate :=
  h_add_node (VExcmd (getpos (h_cur st)) e (getstr line (h_cur st))) st.

(** go/vimlparser.go:643-707  parse_command. [line] is the cursor of linepos. *)
Definition h_parse_command (neovim : bool) (e0 : exarg) (line : cursor) (st0 : hstate)
  : outcome hstate :=
  let c0 := skip_white_and_colon (h_cur st0) in
  let st1 := h_with_cur c0 st0 in
  let e := ea_set_cmdpos (getpos c0) e0 in
  match peek1 c0 with
  | None => if is_nil (ea_modifiers e) && is_nil (ea_range e) then Ok st1
            else h_parse_cmd_modifier_range e line st1
  | Some r =>
    if r =? C """" then
      if is_nil (ea_modifiers e) && is_nil (ea_range e) then Ok st1
      else h_parse_cmd_modifier_range e line st1
    else
      match h_find_command neovim st1 with
      | (None, _) => raise (T "E492: Not an editor command: " ++ peekline c0) (getpos c0)
      | (Some x, st2) =>
        let name := c_name x in
        let c1 := h_cur st2 in
        let force := o_is (peek1 c1) (C "!") && negb (text_eqb name (T "substitute")) &&
                     negb (text_eqb name (T "smagic")) && negb (text_eqb name (T "snomagic")) in
        let c2 := if force then snd (getn 1 c1) else c1 in
        let e1 := ea_set_cmd x force e in
        if negb (has_flag (T "BANG") x) && force && negb (has_flag (T "USERCMD") x)
        then raise (T "E477: No ! allowed") (getpos c0)
        else
          let c3 := if negb (text_eqb name (T "!")) then skip_white c2 else c2 in
          let e2 := ea_set_argpos (getpos c3) e1 in
          let* '(e3, c4) := (if has_flag (T "ARGOPT") x then parse_argopt e2 c3 else Ok (e2, c3)) in
          let* '(e4, c5) := write_args name (getpos c0) e3 c4 in
          let '(e5, c6) := read_args name e4 c5 in
          let '(e6, c7) := shift_args name e5 c6 in
          let '(e7, c8) := (if has_flag (T "EDITCMD") x && negb (ea_usefilter e6)
                            then parse_argcmd e6 c7 else (e6, c7)) in
          h_dispatch (mkEc e7 line c0 c3 x) (h_with_cur c8 st2)
      end
  end.

(** go/vimlparser.go:412-434  parse_one_cmd (parse_hashbang is :871-873). *)
Definition h_parse_one_cmd (neovim : bool) (st : hstate) : outcome hstate :=
  if text_eqb (peekn 2 (h_cur st)) (T "#!") then
    Ok (h_with_cur (snd (get (snd (getn_all (h_cur st))))) st)
  else
    let c := skip_white_and_colon (h_cur st) in
    let st1 := h_with_cur c st in
    match peek1 c with
    | None => Ok (h_with_cur (snd (get c)) st1)
    | Some r =>
      if r =? C """" then
        let* st2 := h_parse_comment st1 in Ok (h_with_cur (snd (get (h_cur st2))) st2)
      else
        let* '(ms, c1) := parse_command_modifiers c in
        let* '(rs, c2) := parse_range c1 in
        let e := ea_set_range rs (ea_set_mods ms (ea_set_line (getpos c) ea0)) in
        let* st2 := h_parse_command neovim e c (h_with_cur c2 st1) in
        h_parse_trail st2
    end.

(** go/vimlparser.go:400-402: the loop of parse. *)
Fixpoint h_cmds_loop (neovim : bool) (n : nat) (st : hstate) : outcome hstate :=
  match n with
  | O => OutOfFuel
  | S n' =>
    if is_eof (h_cur st) then Ok st
    else let* st1 := h_parse_one_cmd neovim st in h_cmds_loop neovim n' st1
  end.

(** go/vimlparser.go:395-409  parse up to its return: the toplevel node is the first one
    made. *)
Definition h_parse (neovim : bool) (c : cursor) : outcome (list hnode) :=
  let top := new_node HTop (getpos c) ea0 in
  let* st := h_cmds_loop neovim (S (clen c)) (mkHs c [0%nat] [top] []) in
  let* f := h_top st in
  if hk_function (n_kind f) then
    raise (T "E126: Missing :endfunction:    TOPLEVEL") (getpos (h_cur st))
  else
    let* _ := h_check_missing (T "TOPLEVEL") (getpos (h_cur st)) f in
    let* st1 := h_pop st in Ok (h_store st1).

(** go/vimlparser.go:410: what the caller finds behind the pointer to the toplevel node. *)
Definition h_vim_parse (neovim : bool) (c : cursor) : outcome vnode :=
  let* s := h_parse neovim c in tree_at s 0.
