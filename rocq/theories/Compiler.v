(** The S-expression compiler of the public AST: compiler/compiler.go. *)
From Verif Require Import Base Vnode Token Ast Export RefCompiler.

(** compiler/compiler.go:495-514  escape. *)
Definition escape (s chars : text) : text :=
  flat_map (fun c => if mem_N c chars then
                       if c =? 10 then T "\n" else if c =? 9 then T "\t"
                       else if c =? 13 then T "\r" else [C "\"; c]
                     else [c]) s.

(** fmt.Fprintf(w, f) without further arguments, on the format f: what Compile does with
    the text of an expression (compiler/compiler.go:80-81, 51-54). The flags, the width and
    the precision of a verb are skipped. The verb forms with "*" and "[" are not
    distinguished from other verbs. *)
Definition is_flag (c : N) : bool := mem_N c (T "#0+- ").
Definition is_digit (c : N) : bool := (48 <=? c) && (c <=? 57).
Fixpoint skip_verb_prefix (st : nat) (f : text) : text :=
  match f with
  | [] => []
  | c :: f' =>
    match st with
    | O => if is_flag c then skip_verb_prefix 0 f'
           else if is_digit c then skip_verb_prefix 1 f'
           else if c =? C "." then skip_verb_prefix 2 f' else f
    | S O => if is_digit c then skip_verb_prefix 1 f'
             else if c =? C "." then skip_verb_prefix 2 f' else f
    | _ => if is_digit c then skip_verb_prefix 2 f' else f
    end
  end.
Fixpoint sprintf0_ (fuel : nat) (f : text) : text :=
  match fuel with
  | O => []
  | S k =>
    match f with
    | [] => []
    | c :: f' =>
      if c =? C "%" then
        match skip_verb_prefix 0 f' with
        | [] => T "%!(NOVERB)"
        | v :: r => (if v =? C "%" then T "%" else T "%!" ++ [v] ++ T "(MISSING)") ++ sprintf0_ k r
        end
      else c :: sprintf0_ k f'
    end
  end.
Definition sprintf0 (f : text) : text := sprintf0_ (S (length f)) f.

(** compiler/compiler.go:374-493  compileExpr. A nil interface gives the empty string. *)
Fixpoint compile_expr (n : node) : text :=
  let ox := fun o => match o with None => [] | Some x => compile_expr x end in
  let sep := join [32] in
  match n with
  | NTernary _ c l r => T "(?: " ++ ox c ++ [32] ++ ox l ++ [32] ++ ox r ++ T ")"
  | NBinary l _ op r =>
    let o := token_string op in
    T "(" ++ (if text_eqb o (T ".") then T "concat" else o) ++ [32] ++ ox l ++ [32] ++ ox r ++ T ")"
  | NUnary _ op x => T "(" ++ token_string op ++ [32] ++ ox x ++ T ")"
  | NSubscript _ l r => T "(subscript " ++ ox l ++ [32] ++ ox r ++ T ")"
  | NSlice x _ lo hi =>
    T "(slice " ++ ox x ++ [32] ++ match lo with None => T "nil" | Some y => compile_expr y end
    ++ [32] ++ match hi with None => T "nil" | Some y => compile_expr y end ++ T ")"
  | NMethod l m _ args =>
    T "(method " ++ ox l ++ T " (" ++ sep (ox m :: map compile_expr args) ++ T "))"
  | NCall f _ args =>
    if is_nil args then T "(" ++ ox f ++ T ")"
    else T "(" ++ ox f ++ [32] ++ sep (map compile_expr args) ++ T ")"
  | NDot l _ r => T "(dot " ++ ox l ++ [32] ++ ox r ++ T ")"
  | NBasicLit _ _ v => v
  | NList _ vs => if is_nil vs then T "(list)" else T "(list " ++ sep (map compile_expr vs) ++ T ")"
  | NDict _ es =>
    if is_nil es then T "(dict)"
    else T "(dict " ++ sep (map (fun e => match e with (k, v) =>
                              T "(" ++ ox k ++ [32] ++ ox v ++ T ")" end) es) ++ T ")"
  | NCurlyName _ ps => join [] (map compile_expr ps)
  | NCurlyLit _ v => v
  | NCurlyExpr _ v => T "{" ++ ox v ++ T "}"
  | NIdent _ s => s
  | NLambda _ ps e => T "(lambda (" ++ sep (map compile_expr ps) ++ T ") " ++ ox e ++ T ")"
  | NHeredoc _ fs m b =>
    T "(heredoc " ++
    (if is_nil fs then T "(list)"
     else T "(list " ++ sep (map (fun f => [34] ++ compile_expr f ++ [34]) fs) ++ T ")") ++
    T " """ ++ m ++ T """ " ++
    (if is_nil b then T "(list)"
     else T "(list " ++ sep (map (fun f => [34] ++ escape (compile_expr f) [10; 9; 13] ++ [34]) b) ++ T ")") ++
    T ")"
  | NParen _ x => ox x
  | _ => []
  end.
Definition compile_oexpr (o : option node) : text := match o with None => [] | Some x => compile_expr x end.

(** compiler/compiler.go:51-54  fprint of a formatted string s. *)
Definition fprint (unit : text) (ind : nat) (s buf : text) : text :=
  buf ++ concat (repeat unit ind) ++ s.
(** compiler/compiler.go:47-49  fprintln. *)
Definition fprintln (unit : text) (ind : nat) (s buf : text) : text := fprint unit ind (s ++ [10]) buf.
(** compiler/compiler.go:60-64  trimLineBreak. *)
Fixpoint trim_nl (r : text) : text := match r with c :: r' => if c =? 10 then trim_nl r' else r | [] => [] end.
Definition trim_line_break (buf : text) : text := rev (trim_nl (rev buf)).
(** trimLineBreak and writeString of the closing parenthesis (e.g. :177-178). *)
Definition close_paren (buf : text) : text := trim_line_break buf ++ [41; 10].

(** compiler/compiler.go:155-172: the parameters. *)
Fixpoint param_texts (i np nd : nat) (ps : list text) (da : list node) : list text :=
  match ps with
  | [] => []
  | p :: ps' =>
    (if (i + nd <? np)%nat then p
     else T "(" ++ p ++ [32] ++ compile_oexpr (nth_error da (i + nd - np)) ++ T ")")
    :: param_texts (S i) np nd ps' da
  end.

(** The field Name of a parameter, an *ast.Ident. *)
Definition ident_name (n : node) : text := match n with NIdent _ s => s | _ => [] end.

(** compiler/compiler.go:157-160: a trailing "..." is cut from node.Params, in place. *)
Definition ends_dots (ps : list node) : bool :=
  match lastn_opt ps with Some p => text_eqb (ident_name p) (token_string TDOTDOTDOT) | None => false end.
Definition cut_dots (ps : list node) : list node := if ends_dots ps then removelast ps else ps.

(** node.Cmd().Name. *)
Definition cmd_name (e : aexarg) : outcome text :=
  match ae_cmd e with None => Panic PNil | Some c => Ok (c_name c) end.

(** The left-hand side in compileLet and compileFor (compiler/compiler.go:199-213, 287-301). *)
Definition compile_lhs (l : option node) (ls : list node) (rs : option node) : text :=
  match l with
  | Some x => compile_expr x
  | None => T "(" ++ join [32] (map compile_expr ls)
            ++ match rs with None => [] | Some x => T " . " ++ compile_expr x end ++ T ")"
  end.

(** What compiling a node yields: the buffer, whether an error was returned, and the node
    after the call (compileFunction changes it). *)
Definition cres := (text * bool * node)%type.

Section CompileBody.
Context (f : node -> text -> outcome cres).
(** compiler/compiler.go:74-79 and compileFile :86-93: a list of statements, stopping at
    the first error. *)
Fixpoint compile_list (l : list node) (buf : text) : outcome (text * bool * list node) :=
  match l with
  | [] => Ok (buf, false, [])
  | x :: t =>
    let* '(buf', err, x') := f x buf in
    if err then Ok (buf', true, x' :: t)
    else let* '(buf'', err', t') := compile_list t buf' in Ok (buf'', err', x' :: t')
  end.
(** The same for the ElseIf and Catch lists, whose errors are dropped (:258-263, :318-329). *)
Fixpoint compile_parts (l : list node) (buf : text) : outcome (text * list node) :=
  match l with
  | [] => Ok (buf, [])
  | x :: t =>
    let* '(buf', _, x') := f x buf in
    let* '(buf'', t') := compile_parts t buf' in Ok (buf'', x' :: t')
  end.
End CompileBody.

Section Compile.
Context (unit : text).   (* Config.Indent *)

(** "(name e1 e2 ...)". *)
Definition line_named (ind : nat) (e : aexarg) (xs : text) (buf : text) : outcome text :=
  let* c := cmd_name e in Ok (fprintln unit ind (T "(" ++ c ++ [32] ++ xs ++ T ")") buf).

(** compiler/compiler.go:66-372  compile, compileExcommand and the functions compileX for
    the statements. An error of a nested c.compile(node.Body) is dropped. *)
Fixpoint comp (ind : nat) (n : node) (buf : text) : outcome cres :=
  let pl := fprintln unit ind in
  let body := fun l buf =>
    let* '(buf', _, l') := compile_list (comp (S ind)) l buf in Ok (buf', l') in
  let same := fun m => let* b := m in Ok (b, false, n) in
  let xs := fun l => join [32] (map compile_expr l) in
  match n with
  | NFile p b => let* '(buf', err, b') := compile_list (comp ind) b buf in Ok (buf', err, NFile p b')
  | NComment _ s => Ok (pl (T ";" ++ s) buf, false, n)
  | NExcmd _ s _ => Ok (pl (T "(excmd """ ++ escape s [92; 34] ++ T """)") buf, false, n)
  | NFunction p e b name ps da a en =>
    let buf1 := fprint unit ind (T "(function (" ++ compile_oexpr name) buf in
    let ps' := cut_dots ps in
    let buf2 :=
      if is_nil ps then buf1
      else let b2 := fprint unit ind [32] buf1 in
           let ts := param_texts 0 (length ps') (length da) (map ident_name ps') da in
           fprint unit ind (join [32] (ts ++ if ends_dots ps then [T ". ..."] else [])) b2 in
    let buf3 := pl (T ")") buf2 in
    let* '(buf4, b') := body b buf3 in
    Ok (close_paren buf4, false, NFunction p e b' name ps' da a en)
  | NDelFunction _ e x => same (line_named ind e (compile_oexpr x) buf)
  | NReturn _ e (Some x) => same (line_named ind e (compile_expr x) buf)
  | NReturn _ e None => same (let* c := cmd_name e in Ok (pl (T "(" ++ c ++ T ")") buf))
  | NExCall _ e x => same (line_named ind e (compile_oexpr x) buf)
  | NLet _ e op l ls rs r =>
    same (let* c := cmd_name e in
          Ok (pl (T "(" ++ c ++ [32] ++ op ++ [32] ++ compile_lhs l ls rs ++ [32] ++ compile_oexpr r ++ T ")") buf))
  | NUnLet _ e ls => same (line_named ind e (xs ls) buf)
  | NLockVar _ e d ls | NUnLockVar _ e d ls =>
    same (line_named ind e ((if (0 <? d)%Z then itoa d ++ [32] else []) ++ xs ls) buf)
  | NIf p e b c eis el en =>
    let* cn := cmd_name e in
    let* '(buf1, b') := body b (pl (T "(" ++ cn ++ [32] ++ compile_oexpr c) buf) in
    let* '(buf2, eis') := compile_parts (fun x buf =>
        match x with
        | NElseIf p e b c =>
          let* cn := cmd_name e in
          let* '(buf', b') := body b (pl (T " " ++ cn ++ [32] ++ compile_oexpr c) buf) in
          Ok (buf', false, NElseIf p e b' c)
        | _ => Panic PType
        end) eis buf1 in
    let* '(buf3, el') :=
      match el with
      | None => Ok (buf2, None)
      | Some (NElse p e b) =>
        let* cn := cmd_name e in
        let* '(buf', b') := body b (pl (T " " ++ cn) buf2) in Ok (buf', Some (NElse p e b'))
      | Some _ => Panic PType
      end in
    Ok (close_paren buf3, false, NIf p e b' c eis' el' en)
  | NWhile p e b c en =>
    let* cn := cmd_name e in
    let* '(buf1, b') := body b (pl (T "(" ++ cn ++ [32] ++ compile_oexpr c) buf) in
    Ok (close_paren buf1, false, NWhile p e b' c en)
  | NFor p e b l ls rs r en =>
    let* cn := cmd_name e in
    let* '(buf1, b') := body b (pl (T "(" ++ cn ++ [32] ++ compile_lhs l ls rs ++ [32] ++ compile_oexpr r) buf) in
    Ok (close_paren buf1, false, NFor p e b' l ls rs r en)
  | NContinue _ e | NBreak _ e => same (let* c := cmd_name e in Ok (pl (T "(" ++ c ++ T ")") buf))
  | NTry p e b cs fi en =>
    let* cn := cmd_name e in
    let* '(buf1, b') := body b (pl (T "(" ++ cn) buf) in
    let* '(buf2, cs') := compile_parts (fun x buf =>
        match x with
        | NCatch p e b pat =>
          let* cn := cmd_name e in
          let* '(buf', b') := body b (pl (T " " ++ cn ++ if is_nil pat then [] else T " /" ++ pat ++ T "/") buf) in
          Ok (buf', false, NCatch p e b' pat)
        | _ => Panic PType
        end) cs buf1 in
    let* '(buf3, fi') :=
      match fi with
      | None => Ok (buf2, None)
      | Some (NFinally p e b) =>
        let* cn := cmd_name e in
        let* '(buf', b') := body b (pl (T " " ++ cn) buf2) in Ok (buf', Some (NFinally p e b'))
      | Some _ => Panic PType
      end in
    Ok (close_paren buf3, false, NTry p e b' cs' fi' en)
  | NThrow _ e x | NEval _ e x => same (line_named ind e (compile_oexpr x) buf)
  | NEchoCmd _ _ e ls | NExecute _ e ls => same (line_named ind e (xs ls) buf)
  | NEchohl _ e s =>
    same (let* c := cmd_name e in Ok (pl (T "(" ++ c ++ T " """ ++ escape s [92; 34] ++ T """)") buf))
  | NEndFunction _ _ | NElseIf _ _ _ _ | NElse _ _ _ | NEndIf _ _ | NEndWhile _ _ | NEndFor _ _
  | NCatch _ _ _ _ | NFinally _ _ _ | NEndTry _ _ => Ok (buf, true, n)
  | _ => Ok (fprint unit ind (sprintf0 (compile_expr n)) buf, false, n)
  end.
End Compile.

(** The result of Compile: what was written to the writer (nothing if an error is
    returned), whether an error was returned, and the tree afterwards. Writing is assumed
    to succeed. *)
Record compiled := mkCompiled { c_out : text; c_err : bool; c_node : node }.

(** compiler/compiler.go:36-45  ( *Compiler ).Compile, called on a fresh Compiler. *)
Definition compile_with (unit : text) (n : node) : outcome compiled :=
  let* '(buf, err, n') := comp unit 0 n [] in
  Ok (mkCompiled (if err then [] else buf) err n').

(** compiler/compiler.go:31-33  Compile. *)
Definition Compile (n : node) : outcome compiled := compile_with (T "  ") n.
