(** The public AST: package ast. *)
From Verif Require Import Base Vnode Token.

(** ast/pos.go:6-13  Pos. File names are byte strings. *)
Record apos := mkAPos { ap_offset : N; ap_line : N; ap_column : N; ap_filename : list N }.

(** ast/exarg.go:4-29  ExArg. The fields never set by the parser (AddrCount, Line1,
    Line2, Flags, DoEcmdLnum, Regname, Argopt, Argcmd) are omitted. *)
Record aexarg := mkAEa {
  ae_forceit : bool;
  ae_do_ecmd_cmd : text;
  ae_append : N;
  ae_usefilter : bool;
  ae_amount : N;
  ae_force_bin : N;
  ae_read_edit : N;
  ae_force_ff : text;
  ae_force_enc : text;
  ae_bad_char : text;
  ae_linepos : option apos;
  ae_cmdpos : option apos;
  ae_argpos : option apos;
  ae_cmd : option cmd;
  ae_modifiers : list modifier;
  ae_range : list text }.

(** ast/node.go:35-570: the node types, one constructor each, in the order of the
    file. Fields of interface or pointer type that can be nil are options. A nil
    slice and an empty slice are not distinguished. ast.FuncAttr and ast.Cmd have the
    fields of the internal records and are represented by them. *)
Inductive node :=
| NFile (start : apos) (body : list node)                                  (* :35 *)
| NComment (quote : apos) (text_ : text)                                   (* :43 *)
| NExcmd (p : apos) (command : text) (ea : aexarg)                         (* :52 *)
| NFunction (p : apos) (ea : aexarg) (body : list node) (name : option node)
            (params default_args : list node) (attr : funcattr)
            (endfunction : option node)                                    (* :62 *)
| NEndFunction (p : apos) (ea : aexarg)                                    (* :84 *)
| NDelFunction (p : apos) (ea : aexarg) (name : option node)               (* :93 *)
| NReturn (p : apos) (ea : aexarg) (result : option node)                  (* :103 *)
| NExCall (p : apos) (ea : aexarg) (funccall : option node)                (* :113 *)
| NLet (p : apos) (ea : aexarg) (op : text) (left : option node) (list_ : list node)
       (rest right : option node)                                          (* :124 *)
| NUnLet (p : apos) (ea : aexarg) (list_ : list node)                      (* :146 *)
| NLockVar (p : apos) (ea : aexarg) (depth : Z) (list_ : list node)        (* :156 *)
| NUnLockVar (p : apos) (ea : aexarg) (depth : Z) (list_ : list node)      (* :167 *)
| NIf (p : apos) (ea : aexarg) (body : list node) (condition : option node)
      (elseif : list node) (else_ endif : option node)                     (* :178 *)
| NElseIf (p : apos) (ea : aexarg) (body : list node) (condition : option node) (* :192 *)
| NElse (p : apos) (ea : aexarg) (body : list node)                        (* :203 *)
| NEndIf (p : apos) (ea : aexarg)                                          (* :213 *)
| NWhile (p : apos) (ea : aexarg) (body : list node) (condition : option node)
         (endwhile : option node)                                          (* :222 *)
| NEndWhile (p : apos) (ea : aexarg)                                       (* :234 *)
| NFor (p : apos) (ea : aexarg) (body : list node) (left : option node) (list_ : list node)
       (rest right : option node) (endfor : option node)                   (* :243 *)
| NEndFor (p : apos) (ea : aexarg)                                         (* :266 *)
| NContinue (p : apos) (ea : aexarg)                                       (* :275 *)
| NBreak (p : apos) (ea : aexarg)                                          (* :284 *)
| NTry (p : apos) (ea : aexarg) (body : list node) (catch : list node)
       (finally endtry : option node)                                      (* :293 *)
| NCatch (p : apos) (ea : aexarg) (body : list node) (pattern : text)      (* :306 *)
| NFinally (p : apos) (ea : aexarg) (body : list node)                     (* :317 *)
| NEndTry (p : apos) (ea : aexarg)                                         (* :327 *)
| NThrow (p : apos) (ea : aexarg) (expr : option node)                     (* :337 *)
| NEval (p : apos) (ea : aexarg) (expr : option node)                      (* :348 *)
| NEchoCmd (p : apos) (cmdname : text) (ea : aexarg) (exprs : list node)   (* :363 *)
| NEchohl (p : apos) (ea : aexarg) (name : text)                           (* :375 *)
| NExecute (p : apos) (ea : aexarg) (exprs : list node)                    (* :386 *)
| NTernary (p : apos) (condition left right : option node)                 (* :397 *)
| NBinary (left : option node) (p : apos) (op : gtok) (right : option node) (* :406 *)
| NUnary (p : apos) (op : gtok) (x : option node)                          (* :415 *)
| NSubscript (p : apos) (left right : option node)                         (* :424 *)
| NSlice (x : option node) (p : apos) (low high : option node)             (* :433 *)
| NMethod (left method : option node) (p : apos) (args : list node)        (* :443 *)
| NCall (fun_ : option node) (p : apos) (args : list node)                 (* :453 *)
| NDot (left : option node) (p : apos) (right : option node)               (* :463 *)
| NBasicLit (p : apos) (kind : gtok) (value : text)                        (* :471 *)
| NList (p : apos) (values : list node)                                    (* :479 *)
| NDict (p : apos) (entries : list (option node * option node))            (* :486, :493 *)
| NCurlyName (p : apos) (parts : list node)                                (* :501 *)
| NCurlyLit (p : apos) (value : text)                                      (* :515 *)
| NCurlyExpr (p : apos) (value : option node)                              (* :525 *)
| NIdent (p : apos) (name : text)                                          (* :534 *)
| NLambda (p : apos) (params : list node) (expr : option node)             (* :544 *)
| NParen (p : apos) (x : option node)                                      (* :554 *)
| NHeredoc (p : apos) (flags : list node) (endmarker : text) (body : list node).  (* :563 *)

(** The methods Pos() of ast/node.go. *)
Definition npos (n : node) : apos :=
  match n with
  | NFile p _ | NComment p _ | NExcmd p _ _ | NFunction p _ _ _ _ _ _ _ | NEndFunction p _
  | NDelFunction p _ _ | NReturn p _ _ | NExCall p _ _ | NLet p _ _ _ _ _ _ | NUnLet p _ _
  | NLockVar p _ _ _ | NUnLockVar p _ _ _ | NIf p _ _ _ _ _ _ | NElseIf p _ _ _ | NElse p _ _
  | NEndIf p _ | NWhile p _ _ _ _ | NEndWhile p _ | NFor p _ _ _ _ _ _ _ | NEndFor p _
  | NContinue p _ | NBreak p _ | NTry p _ _ _ _ _ | NCatch p _ _ _ | NFinally p _ _
  | NEndTry p _ | NThrow p _ _ | NEval p _ _ | NEchoCmd p _ _ _ | NEchohl p _ _
  | NExecute p _ _ | NTernary p _ _ _ | NBinary _ p _ _ | NUnary p _ _ | NSubscript p _ _
  | NSlice _ p _ _ | NMethod _ _ p _ | NCall _ p _ | NDot _ p _ | NBasicLit p _ _
  | NList p _ | NDict p _ | NCurlyName p _ | NCurlyLit p _ | NCurlyExpr p _ | NIdent p _
  | NLambda p _ _ | NParen p _ | NHeredoc p _ _ _ => p
  end.

(** The ExArg field of a command node. *)
Definition nea (n : node) : option aexarg :=
  match n with
  | NExcmd _ _ e | NFunction _ e _ _ _ _ _ _ | NEndFunction _ e | NDelFunction _ e _
  | NReturn _ e _ | NExCall _ e _ | NLet _ e _ _ _ _ _ | NUnLet _ e _ | NLockVar _ e _ _
  | NUnLockVar _ e _ _ | NIf _ e _ _ _ _ _ | NElseIf _ e _ _ | NElse _ e _ | NEndIf _ e
  | NWhile _ e _ _ _ | NEndWhile _ e | NFor _ e _ _ _ _ _ _ | NEndFor _ e | NContinue _ e
  | NBreak _ e | NTry _ e _ _ _ _ | NCatch _ e _ _ | NFinally _ e _ | NEndTry _ e
  | NThrow _ e _ | NEval _ e _ | NEchoCmd _ _ e _ | NEchohl _ e _ | NExecute _ e _ => Some e
  | _ => None
  end.

(** ast/node.go:609-626: the types implementing Expr. *)
Definition is_expr (n : node) : bool :=
  match n with
  | NTernary _ _ _ _ | NBinary _ _ _ _ | NUnary _ _ _ | NSubscript _ _ _ | NSlice _ _ _ _
  | NMethod _ _ _ _ | NCall _ _ _ | NDot _ _ _ | NBasicLit _ _ _ | NList _ _ | NDict _ _
  | NCurlyName _ _ | NCurlyLit _ _ | NCurlyExpr _ _ | NIdent _ _ | NLambda _ _ _
  | NParen _ _ | NHeredoc _ _ _ _ => true
  | _ => false
  end.

(** ast/node.go:575-605: the types implementing Statement; all but File and the
    expressions. *)
Definition is_stmt (n : node) : bool :=
  match n with NFile _ _ => false | _ => negb (is_expr n) end.

(** ast/node.go: the methods Cmd() dereference ExArg.Cmd. *)
Definition node_cmd (n : node) : outcome cmd :=
  match nea n with
  | Some e => match ae_cmd e with Some c => Ok c | None => Panic PNil end
  | None => Panic PType
  end.
