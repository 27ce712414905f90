(** The S-expression compiler of the internal package, which works on the internal
    tree: go/vimlparser.go:3532-4358 and go/type.go:242-322. *)
From Verif Require Import Base Vnode Token ExprParser Export.

(** viml_join (go/vimlfunc.go:109-116). *)
Fixpoint join (sep : text) (l : list text) : text :=
  match l with
  | [] => []
  | [x] => x
  | x :: l' => x ++ sep ++ join sep l'
  end.

(** viml_escape (go/vimlfunc.go:97-107) called with the characters backslash and double
    quote: a backslash goes before each of them. *)
Definition escape_bq (s : text) : text :=
  flat_map (fun c => if (c =? C "\") || (c =? 34) then [C "\"; c] else [c]) s.

(** go/vimlparser.go:4301-4316  escape_string. *)
Definition escape_string (s : text) : text :=
  34 :: flat_map (fun c => if c =? 10 then T "\n" else if c =? 9 then T "\t"
                           else if c =? 13 then T "\r" else [c]) s ++ [34].

(** The name printed for a comparison (go/vimlparser.go:4068-4186). *)
Definition rc_cmp (o : cmpop) (m : cmode) : text :=
  (match o with
   | OEq => T "==" | ONeq => T "!=" | OGt => T ">" | OGtEq => T ">=" | OLt => T "<"
   | OLtEq => T "<=" | OMatch => T "=~" | ONoMatch => T "!~" | OIs => T "is" | OIsNot => T "isnot"
   end) ++
  (match m with MNone => [] | MCi => T "?" | MCs => T "#" end).
(** go/vimlparser.go:4060-4210. *)
Definition rc_bin (o : binop) : text :=
  match o with
  | BOr => T "||" | BAnd => T "&&" | BCmp o m => rc_cmp o m
  | BAdd => T "+" | BSub => T "-" | BConcat => T "concat" | BMul => T "*" | BDiv => T "/" | BRem => T "%"
  end.
(** go/vimlparser.go:4212-4222. *)
Definition rc_un (o : unop) : text := match o with UNot => T "!" | UPlus => T "+" | UMinus => T "-" end.

(** vval.value.(string) of a heredoc word (go/vimlparser.go:4337, 4350). *)
Definition value_string (n : vnode) : outcome text :=
  match n with
  | VLit _ _ s | VIdent _ s | VCurlyPart _ s => Ok s
  | _ => Panic PType
  end.

(** The heredoc words (go/vimlparser.go:4330-4355). *)
Definition rc_words (l : list vnode) : outcome text :=
  if is_nil l then Ok (T "(list)")
  else let* ws := mapM (fun x => let* s := value_string x in Ok (escape_string s)) l in
       Ok (T "(list " ++ join [32] ws ++ T ")").

(** compile applied to an expression (go/vimlparser.go:3532-3738, 4056-4358;
    go/type.go:278-322). Applied to a statement the result is nil, so the assertion
    to string fails; the output written before is of no consequence. *)
Fixpoint rc_expr (n : vnode) : outcome text :=
  match n with
  | VTernary _ c l r =>
    let* c' := rc_expr c in let* l' := rc_expr l in let* r' := rc_expr r in
    Ok (T "(?: " ++ c' ++ [32] ++ l' ++ [32] ++ r' ++ T ")")
  | VBin o _ l r =>
    let* l' := rc_expr l in let* r' := rc_expr r in
    Ok (T "(" ++ rc_bin o ++ [32] ++ l' ++ [32] ++ r' ++ T ")")
  | VUn o _ l => let* l' := rc_expr l in Ok (T "(" ++ rc_un o ++ [32] ++ l' ++ T ")")
  | VSubscript _ l r =>
    let* l' := rc_expr l in let* r' := rc_expr r in
    Ok (T "(subscript " ++ l' ++ [32] ++ r' ++ T ")")
  | VSlice _ l r0 r1 =>
    let* a := match r0 with None => Ok (T "nil") | Some x => rc_expr x end in
    let* b := match r1 with None => Ok (T "nil") | Some x => rc_expr x end in
    let* l' := rc_expr l in
    Ok (T "(slice " ++ l' ++ [32] ++ a ++ [32] ++ b ++ T ")")
  | VDot _ l r =>
    let* l' := rc_expr l in let* r' := rc_expr r in Ok (T "(dot " ++ l' ++ [32] ++ r' ++ T ")")
  | VMethod _ l r =>
    let* l' := rc_expr l in let* r' := rc_expr r in Ok (T "(method " ++ l' ++ [32] ++ r' ++ T ")")
  | VCall _ l rl =>
    let* rl' := mapM rc_expr rl in
    let* l' := rc_expr l in
    if is_nil rl' then Ok (T "(" ++ l' ++ T ")")
    else Ok (T "(" ++ l' ++ [32] ++ join [32] rl' ++ T ")")
  | VLit _ _ s | VIdent _ s | VCurlyPart _ s => Ok s
  | VList _ vs =>
    let* vs' := mapM rc_expr vs in
    if is_nil vs' then Ok (T "(list)") else Ok (T "(list " ++ join [32] vs' ++ T ")")
  | VDict _ kvs =>
    let* kvs' := mapM (fun kv => match kv with (k, v) =>
                         let* k' := rc_expr k in let* v' := rc_expr v in
                         Ok (T "(" ++ k' ++ [32] ++ v' ++ T ")") end) kvs in
    if is_nil kvs' then Ok (T "(dict)") else Ok (T "(dict " ++ join [32] kvs' ++ T ")")
  | VCurlyName _ parts => let* ps := mapM rc_expr parts in Ok (join [] ps)
  | VCurlyExpr _ v => let* v' := rc_expr v in Ok (T "{" ++ v' ++ T "}")
  | VLambda _ rl l =>
    let* rl' := mapM rc_expr rl in let* l' := rc_expr l in
    Ok (T "(lambda (" ++ join [32] rl' ++ T ") " ++ l' ++ T ")")
  | VHeredoc _ rl op body =>
    let* f := rc_words rl in let* b := rc_words body in
    Ok (T "(heredoc " ++ f ++ [32] ++ escape_string op ++ [32] ++ b ++ T ")")
  | VParen _ v => rc_expr v
  | _ => Panic PType
  end.

(** go/type.go:258-268  out, with a line that does not start with a parenthesis or with arguments;
    the lines are kept in reverse order. *)
Definition rc_line (ind s : text) (lines : list text) : list text := (ind ++ s) :: lines.
(** go/type.go:258-268  out of a closing parenthesis: the parenthesis is appended to the last line. *)
Definition rc_close (lines : list text) : outcome (list text) :=
  match lines with [] => Panic PIndex | l :: t => Ok ((l ++ T ")") :: t) end.

(** The parameters of a function (go/vimlparser.go:3775-3791): rl are the compiled
    parameters, da the compiled default values. *)
Fixpoint rc_params (i nr nd : nat) (rl da : list text) : text :=
  match rl with
  | [] => []
  | r :: rl' =>
    (if (i + nd <? nr)%nat then [32] ++ r
     else T " (" ++ r ++ [32] ++ nth (i + nd - nr) da [] ++ T ")")
    ++ rc_params (S i) nr nd rl' da
  end.
Definition rc_signature (left : text) (rl da : list text) : text :=
  match lastn_opt rl with
  | None => left
  | Some x =>
    let remaining := text_eqb x (T "...") in
    let rl' := if remaining then removelast rl else rl in
    left ++ rc_params 0 (length rl') (length da) rl' da ++ (if remaining then T " . ..." else [])
  end.

(** The left-hand side of :let, :const and :for (go/vimlparser.go:3820-3835). *)
Definition rc_lhs (l : option vnode) (ls : list vnode) (rs : option vnode) : outcome text :=
  match l with
  | Some x => rc_expr x
  | None =>
    let* ls' := mapM rc_expr ls in
    let* rs' := match rs with None => Ok [] | Some x => let* s := rc_expr x in Ok (T " . " ++ s) end in
    Ok (T "(" ++ join [32] ls' ++ rs' ++ T ")")
  end.

Definition rc_some (o : option vnode) : outcome text :=
  match o with None => Panic PNil | Some x => rc_expr x end.

(** A body (go/vimlparser.go:3740-3744). *)
Section Body.
Context (f : vnode -> list text -> outcome (list text)).
Fixpoint rc_each (l : list vnode) (lines : list text) : outcome (list text) :=
  match l with
  | [] => Ok lines
  | x :: t => let* lines' := f x lines in rc_each t lines'
  end.
End Body.

Definition rc_echo_name (k : echokind) : text :=
  match k with EEcho => T "echo" | EEchon => T "echon" | EEchomsg => T "echomsg" | EEchoerr => T "echoerr" end.

(** "(name e1 e2 ...)" (compile_echo, compile_execute, compile_unlet). *)
Definition rc_named (ind name : text) (ls : list vnode) (lines : list text) : outcome (list text) :=
  let* ls' := mapM rc_expr ls in
  Ok (rc_line ind (T "(" ++ name ++ [32] ++ join [32] ls' ++ T ")") lines).
Definition rc_one (ind name : text) (x : vnode) (lines : list text) : outcome (list text) :=
  let* s := rc_expr x in Ok (rc_line ind (T "(" ++ name ++ [32] ++ s ++ T ")") lines).
(** compile_lockvar, compile_unlockvar. *)
Definition rc_lock (ind name : text) (d : Z) (ls : list vnode) (lines : list text) : outcome (list text) :=
  let* ls' := mapM rc_expr ls in
  Ok (rc_line ind (T "(" ++ name ++ [32] ++
                   (if (d =? 0)%Z then [] else itoa d ++ [32]) ++ join [32] ls' ++ T ")") lines).

(** compile applied to a statement (go/vimlparser.go:3532-4054); [ind] is the current
    indentation. The indentation unit is two spaces. An expression in statement
    position writes nothing. A node of type ELSEIF, ELSE, ENDIF, ... is unknown to compile
    and panics with a string. *)
Fixpoint rc_stmt (ind : text) (n : vnode) (lines : list text) : outcome (list text) :=
  let ind2 := ind ++ T "  " in
  let body := fun l lines => rc_each (rc_stmt ind2) l lines in
  match n with
  | VToplevel _ b => rc_each (rc_stmt ind) b lines
  | VComment _ s => Ok (rc_line ind (T ";" ++ s) lines)
  | VExcmd _ _ s => Ok (rc_line ind (T "(excmd """ ++ escape_bq s ++ T """)") lines)
  | VFunction _ _ b l rl da _ _ =>
    let* l' := rc_expr l in
    let* rl' := mapM rc_expr rl in
    let* da' := mapM rc_expr da in
    let* lines' := body b (rc_line ind (T "(function (" ++ rc_signature l' rl' da' ++ T ")") lines) in
    rc_close lines'
  | VDelfunction _ _ l => rc_one ind (T "delfunction") l lines
  | VReturn _ _ None => Ok (rc_line ind (T "(return)") lines)
  | VReturn _ _ (Some l) => rc_one ind (T "return") l lines
  | VExcall _ _ l => rc_one ind (T "call") l lines
  | VEval _ _ l => rc_one ind (T "eval") l lines
  | VLet _ _ op l ls rs r =>
    let* l' := rc_lhs l ls rs in let* r' := rc_some r in
    Ok (rc_line ind (T "(let " ++ op ++ [32] ++ l' ++ [32] ++ r' ++ T ")") lines)
  | VConst _ _ op l ls rs r =>
    let* l' := rc_lhs l ls rs in let* r' := rc_some r in
    Ok (rc_line ind (T "(const " ++ op ++ [32] ++ l' ++ [32] ++ r' ++ T ")") lines)
  | VUnlet _ _ ls => rc_named ind (T "unlet") ls lines
  | VLockvar _ _ d ls => rc_lock ind (T "lockvar") d ls lines
  | VUnlockvar _ _ d ls => rc_lock ind (T "unlockvar") d ls lines
  | VIf _ _ b c eis el _ =>
    let* c' := rc_expr c in
    let* lines1 := body b (rc_line ind (T "(if " ++ c') lines) in
    let* lines2 := rc_each (fun x lines =>
                     match x with
                     | VElseif _ _ b c =>
                       let* c' := rc_expr c in body b (rc_line ind (T " elseif " ++ c') lines)
                     | _ => Panic PNil
                     end) eis lines1 in
    let* lines3 := match el with
                   | None => Ok lines2
                   | Some (VElse _ _ b) => body b (rc_line ind (T " else") lines2)
                   | Some _ => Panic PNil
                   end in
    rc_close lines3
  | VWhile _ _ b c _ =>
    let* c' := rc_expr c in
    let* lines' := body b (rc_line ind (T "(while " ++ c') lines) in
    rc_close lines'
  | VFor _ _ b l ls rs r _ =>
    let* l' := rc_lhs l ls rs in let* r' := rc_expr r in
    let* lines' := body b (rc_line ind (T "(for " ++ l' ++ [32] ++ r') lines) in
    rc_close lines'
  | VContinue _ _ => Ok (rc_line ind (T "(continue)") lines)
  | VBreak _ _ => Ok (rc_line ind (T "(break)") lines)
  | VTry _ _ b cs fi _ =>
    let* lines1 := body b (rc_line ind (T "(try") lines) in
    let* lines2 := rc_each (fun x lines =>
                     match x with
                     | VCatch _ _ b pat =>
                       body b (rc_line ind (if is_nil pat then T " catch" else T " catch /" ++ pat ++ T "/") lines)
                     | _ => Panic PNil
                     end) cs lines1 in
    let* lines3 := match fi with
                   | None => Ok lines2
                   | Some (VFinally _ _ b) => body b (rc_line ind (T " finally") lines2)
                   | Some _ => Panic PNil
                   end in
    rc_close lines3
  | VThrow _ _ l => rc_one ind (T "throw") l lines
  | VEcho k _ _ ls => rc_named ind (rc_echo_name k) ls lines
  | VEchohl _ _ s => Ok (rc_line ind (T "(echohl """ ++ escape_bq s ++ T """)") lines)
  | VExecute _ _ ls => rc_named ind (T "execute") ls lines
  | VEndfunction _ _ | VElseif _ _ _ _ | VElse _ _ _ | VEndif _ _ | VEndwhile _ _ | VEndfor _ _
  | VCatch _ _ _ _ | VFinally _ _ _ | VEndtry _ _ => Panic PUnknownToken
  | _ => let* _ := rc_expr n in Ok lines
  end.

(** compile of a top-level node (go/vimlparser.go:3746-3749). *)
Definition rc_compile (n : vnode) : outcome (list text) :=
  let* lines := rc_stmt [] n [] in Ok (rev lines).
