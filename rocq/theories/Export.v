(** Conversion of the internal tree to the public AST: go/export.go. *)
From Verif Require Import Base Reader Vnode Token Ast ExprParser CmdParser.

(** A loop "for x := range l { append(r, f(x)) }". *)
Section MapM.
Context {A B : Type} (f : A -> outcome B).
Fixpoint mapM (l : list A) : outcome (list B) :=
  match l with
  | [] => Ok []
  | x :: t => let* y := f x in let* ys := mapM t in Ok (y :: ys)
  end.
Definition optM (o : option A) : outcome (option B) :=
  match o with None => Ok None | Some x => let* y := f x in Ok (Some y) end.
End MapM.

(** go/export.go:496-506  newPos. *)
Definition new_pos (file : list N) (p : pos) : apos := mkAPos (p_off p) (p_lnum p) (p_col p) file.

(** go/export.go:508-535  newExArg; newCmd (:537-547) copies the record. *)
Definition new_exarg (file : list N) (e : exarg) : aexarg :=
  mkAEa (ea_forceit e) (ea_do_ecmd_cmd e) (ea_append e) (ea_usefilter e) (ea_amount e)
        (ea_force_bin e) (ea_read_edit e) (ea_force_ff e) (ea_force_enc e) (ea_bad_char e)
        (option_map (new_pos file) (ea_linepos e)) (option_map (new_pos file) (ea_cmdpos e))
        (option_map (new_pos file) (ea_argpos e)) (ea_cmd e) (ea_modifiers e) (ea_range e).

(** go/export.go:597-682  opToken. *)
Definition cmp_token (o : cmpop) (m : cmode) : gtok :=
  match o, m with
  | OEq, MNone => TEQEQ | OEq, MCi => TEQEQCI | OEq, MCs => TEQEQCS
  | ONeq, MNone => TNEQ | ONeq, MCi => TNEQCI | ONeq, MCs => TNEQCS
  | OGt, MNone => TGT | OGt, MCi => TGTCI | OGt, MCs => TGTCS
  | OGtEq, MNone => TGTEQ | OGtEq, MCi => TGTEQCI | OGtEq, MCs => TGTEQCS
  | OLt, MNone => TLT | OLt, MCi => TLTCI | OLt, MCs => TLTCS
  | OLtEq, MNone => TLTEQ | OLtEq, MCi => TLTEQCI | OLtEq, MCs => TLTEQCS
  | OMatch, MNone => TMATCH | OMatch, MCi => TMATCHCI | OMatch, MCs => TMATCHCS
  | ONoMatch, MNone => TNOMATCH | ONoMatch, MCi => TNOMATCHCI | ONoMatch, MCs => TNOMATCHCS
  | OIs, MNone => TIS | OIs, MCi => TISCI | OIs, MCs => TISCS
  | OIsNot, MNone => TISNOT | OIsNot, MCi => TISNOTCI | OIsNot, MCs => TISNOTCS
  end.
Definition bin_token (o : binop) : gtok :=
  match o with
  | BOr => TOROR | BAnd => TANDAND | BCmp o m => cmp_token o m
  | BAdd => TPLUS | BSub => TMINUS | BConcat => TDOT
  | BMul => TSTAR | BDiv => TSLASH | BRem => TPERCENT
  end.
Definition un_token (o : unop) : gtok := match o with UNot => TNOT | UMinus => TMINUS | UPlus => TPLUS end.

(** go/export.go:376-387, 408-413, 431-443, 465-470: the kinds of BasicLit. *)
Definition lit_token (k : litkind) : gtok :=
  match k with
  | LNumber => TNUMBER | LString => TSTRING | LOption => TOPTION | LEnv => TENV | LReg => TREG
  | LBlob => TBLOB
  end.

(** The failed type assertions x.( *ast.T ) are panics. *)
Definition assert_node (f : node -> bool) (n : node) : outcome node :=
  if f n then Ok n else Panic PType.
Definition assert_some (f : node -> bool) (o : option node) : outcome node :=
  match o with Some n => assert_node f n | None => Panic PType end.

Definition is_ident (n : node) := match n with NIdent _ _ => true | _ => false end.
Definition is_call (n : node) := match n with NCall _ _ _ => true | _ => false end.
Definition is_curlypart (n : node) := match n with NCurlyLit _ _ | NCurlyExpr _ _ => true | _ => false end.
Definition is_endfunction (n : node) := match n with NEndFunction _ _ => true | _ => false end.
Definition is_elseif (n : node) := match n with NElseIf _ _ _ _ => true | _ => false end.
Definition is_else (n : node) := match n with NElse _ _ _ => true | _ => false end.
Definition is_endif (n : node) := match n with NEndIf _ _ => true | _ => false end.
Definition is_endwhile (n : node) := match n with NEndWhile _ _ => true | _ => false end.
Definition is_endfor (n : node) := match n with NEndFor _ _ => true | _ => false end.
Definition is_catch (n : node) := match n with NCatch _ _ _ _ => true | _ => false end.
Definition is_finally (n : node) := match n with NFinally _ _ _ => true | _ => false end.
Definition is_endtry (n : node) := match n with NEndTry _ _ => true | _ => false end.

(** go/export.go:491-494  newExprNode: a node that is not an expression becomes nil. *)
Definition to_expr (n : node) : option node := if is_expr n then Some n else None.

(** An element of a []ast.Expr. A nil element (a node that is not an expression,
    go/export.go:582) is recorded as a panic; it does not occur. *)
Definition expr_elem (n : node) : outcome node := if is_expr n then Ok n else Panic PNil.

(** go/export.go:25-489  newAstNode, with newBody (:549-560), newIdents (:562-573),
    newExprs (:575-586), newValues (:588-595) inlined. *)
Fixpoint new_ast (file : list N) (n : vnode) : outcome node :=
  let P := new_pos file in
  let E := new_exarg file in
  let ex := fun x => let* y := new_ast file x in Ok (to_expr y) in
  let oex := fun o => match o with None => Ok None | Some x => ex x end in
  let stm := fun x => let* y := new_ast file x in assert_node is_stmt y in
  let exs := fun x => let* y := new_ast file x in expr_elem y in
  let cast := fun f x => let* y := new_ast file x in assert_node f y in
  let ocast := fun f o => match o with
                          | None => Panic PType
                          | Some x => let* y := cast f x in Ok (Some y) end in
  match n with
  | VToplevel p body => let* b := mapM stm body in Ok (NFile (P p) b)
  | VComment p s => Ok (NComment (P p) s)
  | VExcmd p e s => Ok (NExcmd (P p) s (E e))
  | VFunction p e body l rl da a en =>
    let* b := mapM stm body in
    let* l' := ex l in
    let* rl' := mapM (cast is_ident) rl in
    let* da' := mapM exs da in
    let* en' := ocast is_endfunction en in
    Ok (NFunction (P p) (E e) b l' rl' da' a en')
  | VEndfunction p e => Ok (NEndFunction (P p) (E e))
  | VDelfunction p e l => let* l' := ex l in Ok (NDelFunction (P p) (E e) l')
  | VReturn p e l => let* l' := oex l in Ok (NReturn (P p) (E e) l')
  | VExcall p e l => let* l' := cast is_call l in Ok (NExCall (P p) (E e) (Some l'))
  | VLet p e op l ls rs r | VConst p e op l ls rs r =>
    let* l' := oex l in
    let* ls' := mapM exs ls in
    let* rs' := oex rs in
    let* r' := oex r in
    Ok (NLet (P p) (E e) op l' ls' rs' r')
  | VUnlet p e ls => let* ls' := mapM exs ls in Ok (NUnLet (P p) (E e) ls')
  | VLockvar p e d ls => let* ls' := mapM exs ls in Ok (NLockVar (P p) (E e) d ls')
  | VUnlockvar p e d ls => let* ls' := mapM exs ls in Ok (NUnLockVar (P p) (E e) d ls')
  | VIf p e body c eis el en =>
    let* eis' := mapM (cast is_elseif) eis in
    let* el' := optM (cast is_else) el in
    let* b := mapM stm body in
    let* c' := ex c in
    let* en' := ocast is_endif en in
    Ok (NIf (P p) (E e) b c' eis' el' en')
  | VElseif p e body c =>
    let* b := mapM stm body in let* c' := ex c in Ok (NElseIf (P p) (E e) b c')
  | VElse p e body => let* b := mapM stm body in Ok (NElse (P p) (E e) b)
  | VEndif p e => Ok (NEndIf (P p) (E e))
  | VWhile p e body c en =>
    let* b := mapM stm body in
    let* c' := ex c in
    let* en' := ocast is_endwhile en in
    Ok (NWhile (P p) (E e) b c' en')
  | VEndwhile p e => Ok (NEndWhile (P p) (E e))
  | VFor p e body l ls rs r en =>
    let* b := mapM stm body in
    let* l' := oex l in
    let* ls' := mapM exs ls in
    let* rs' := oex rs in
    let* r' := ex r in
    let* en' := ocast is_endfor en in
    Ok (NFor (P p) (E e) b l' ls' rs' r' en')
  | VEndfor p e => Ok (NEndFor (P p) (E e))
  | VContinue p e => Ok (NContinue (P p) (E e))
  | VBreak p e => Ok (NBreak (P p) (E e))
  | VTry p e body cs fi en =>
    let* cs' := mapM (cast is_catch) cs in
    let* fi' := optM (cast is_finally) fi in
    let* b := mapM stm body in
    let* en' := ocast is_endtry en in
    Ok (NTry (P p) (E e) b cs' fi' en')
  | VCatch p e body pat => let* b := mapM stm body in Ok (NCatch (P p) (E e) b pat)
  | VFinally p e body => let* b := mapM stm body in Ok (NFinally (P p) (E e) b)
  | VEndtry p e => Ok (NEndTry (P p) (E e))
  | VThrow p e l => let* l' := ex l in Ok (NThrow (P p) (E e) l')
  | VEval p e l => let* l' := ex l in Ok (NEval (P p) (E e) l')
  | VEcho _ p e ls =>
    match ea_cmd e with
    | None => Panic PNil
    | Some c => let* ls' := mapM exs ls in Ok (NEchoCmd (P p) (c_name c) (E e) ls')
    end
  | VEchohl p e s => Ok (NEchohl (P p) (E e) s)
  | VExecute p e ls => let* ls' := mapM exs ls in Ok (NExecute (P p) (E e) ls')
  | VTernary p c l r =>
    let* c' := ex c in let* l' := ex l in let* r' := ex r in Ok (NTernary (P p) c' l' r')
  | VBin o p l r => let* l' := ex l in let* r' := ex r in Ok (NBinary l' (P p) (bin_token o) r')
  | VUn o p l => let* l' := ex l in Ok (NUnary (P p) (un_token o) l')
  | VSubscript p l r => let* l' := ex l in let* r' := ex r in Ok (NSubscript (P p) l' r')
  | VSlice p l r0 r1 =>
    let* l' := ex l in let* a := oex r0 in let* b := oex r1 in Ok (NSlice l' (P p) a b)
  | VMethod p l r =>
    match r with
    | VCall _ f args =>
      let* l' := ex l in let* f' := ex f in let* args' := mapM exs args in
      Ok (NMethod l' f' (P p) args')
    | _ => Panic PNil
    end
  | VCall p l rl => let* l' := ex l in let* rl' := mapM exs rl in Ok (NCall l' (P p) rl')
  | VDot p l r => let* l' := ex l in let* r' := cast is_ident r in Ok (NDot l' (P p) (Some r'))
  | VLit k p s => Ok (NBasicLit (P p) (lit_token k) s)
  | VList p vs => let* vs' := mapM exs vs in Ok (NList (P p) vs')
  | VDict p kvs =>
    let* kvs' := mapM (fun kv => match kv with (k, v) =>
                         let* k' := ex k in let* v' := ex v in Ok (k', v') end) kvs in
    Ok (NDict (P p) kvs')
  | VIdent p s => Ok (NIdent (P p) s)
  | VCurlyName p parts => let* ps := mapM (cast is_curlypart) parts in Ok (NCurlyName (P p) ps)
  | VCurlyPart p s => Ok (NCurlyLit (P p) s)
  | VCurlyExpr p v => let* v' := ex v in Ok (NCurlyExpr (P p) v')
  | VLambda p rl l => let* rl' := mapM (cast is_ident) rl in let* l' := ex l in Ok (NLambda (P p) rl' l')
  | VHeredoc p rl op body =>
    let* rl' := mapM exs rl in let* b := mapM exs body in Ok (NHeredoc (P p) rl' op b)
  | VParen p v => let* v' := ex v in Ok (NParen (P p) v')
  end.

(** go/export.go:11-13  VimLParser.Parse. *)
Definition parse_to_ast (neovim : bool) (c : cursor) (file : list N) : outcome node :=
  let* v := vim_parse neovim c in new_ast file v.

(** go/export.go:16-18  ExprParser.Parse; the result can be a nil interface. *)
Definition parse_expr_to_ast (c : cursor) : outcome (option node) :=
  let* '(v, _) := parse_expr c in let* n := new_ast [] v in Ok (to_expr n).
