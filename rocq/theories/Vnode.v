(** Internal tokens and the internal tree (VimNode). *)
From Verif Require Import Base.

(** The comparison operators and their case modifiers ("", "?", "#"). *)
Inductive cmpop := OEq | ONeq | OGt | OGtEq | OLt | OLtEq | OMatch | ONoMatch | OIs | OIsNot.
Inductive cmode := MNone | MCi | MCs.

(** go/vimlparser.go:104-172  TOKEN_*. TOKEN_EQEQ, TOKEN_EQEQCI, TOKEN_EQEQCS are
    [KCmp OEq MNone], [KCmp OEq MCi], [KCmp OEq MCs], and so on for the other nine
    comparison operators. TOKEN_HEREDOC is never produced. *)
Inductive tok :=
| KEof | KEol | KSpace | KOrOr | KAndAnd | KCmp (o : cmpop) (m : cmode)
| KPlus | KMinus | KDot | KStar | KSlash | KPercent | KNot | KQuestion | KColon
| KPOpen | KPClose | KSqOpen | KSqClose | KCOpen | KCClose | KComma
| KNumber | KSQuote | KDQuote | KOption | KIdent | KEnv | KReg | KEq | KOr
| KSemicolon | KBacktick | KDotDotDot | KSharp | KArrow | KBlob | KLitCOpen | KDotDot.

Definition cmpop_num (o : cmpop) : N :=
  match o with
  | OEq => 6 | ONeq => 9 | OGt => 12 | OGtEq => 15 | OLt => 18 | OLtEq => 21
  | OMatch => 24 | ONoMatch => 27 | OIs => 30 | OIsNot => 33
  end.
Definition cmode_num (m : cmode) : N := match m with MNone => 0 | MCi => 1 | MCs => 2 end.

(** go/vimlparser.go:104-172  numeric values of the TOKEN_* constants. *)
Definition tok_num (k : tok) : N :=
  match k with
  | KEof => 1 | KEol => 2 | KSpace => 3 | KOrOr => 4 | KAndAnd => 5
  | KCmp o m => cmpop_num o + cmode_num m
  | KPlus => 36 | KMinus => 37 | KDot => 38 | KStar => 39 | KSlash => 40 | KPercent => 41
  | KNot => 42 | KQuestion => 43 | KColon => 44 | KPOpen => 45 | KPClose => 46
  | KSqOpen => 47 | KSqClose => 48 | KCOpen => 49 | KCClose => 50 | KComma => 51
  | KNumber => 52 | KSQuote => 53 | KDQuote => 54 | KOption => 55 | KIdent => 56
  | KEnv => 57 | KReg => 58 | KEq => 59 | KOr => 60 | KSemicolon => 61 | KBacktick => 62
  | KDotDotDot => 63 | KSharp => 64 | KArrow => 65 | KBlob => 66 | KLitCOpen => 67
  | KDotDot => 68
  end.

(** Equality of token types is equality of the numbers. *)
Definition tok_eqb (a b : tok) : bool := tok_num a =? tok_num b.

(** go/type.go:134-138  ExprToken. *)
Record token := mkTok { tk : tok; tv : text; tp : pos }.

(** go/type.go:35-40  Cmd. *)
Record cmd := mkCmd { c_name : text; c_minlen : N; c_flags : text; c_parser : text }.

(** An element of ExArg.modifiers: a map with key "name" and possibly "bang" and
    "count" (go/vimlparser.go:437-538). *)
Record modifier := mkMod { m_name : text; m_bang : option N; m_count : option Z }.

(** go/type.go:8-33  ExArg. The fields addr_count, line1, line2, flags, do_ecmd_lnum,
    regname, argopt and argcmd are never assigned in the code and are omitted. *)
Record exarg := mkEa {
  ea_forceit : bool;
  ea_do_ecmd_cmd : text;
  ea_append : N;
  ea_usefilter : bool;
  ea_amount : N;
  ea_force_bin : N;
  ea_read_edit : N;
  ea_force_ff : text;
  ea_force_enc : text;
  ea_bad_char : text;
  ea_linepos : option pos;
  ea_cmdpos : option pos;
  ea_argpos : option pos;
  ea_cmd : option cmd;
  ea_modifiers : list modifier;
  ea_range : list text }.

(** go/type.go:76-81  FuncAttr. *)
Record funcattr := mkAttr { a_range : bool; a_abort : bool; a_dict : bool; a_closure : bool }.

(** NODE_OR, NODE_AND, NODE_EQUAL.., NODE_ADD, NODE_SUBTRACT, NODE_CONCAT,
    NODE_MULTIPLY, NODE_DIVIDE, NODE_REMAINDER (go/vimlparser.go:5-103). *)
Inductive binop := BOr | BAnd | BCmp (o : cmpop) (m : cmode)
| BAdd | BSub | BConcat | BMul | BDiv | BRem.
(** NODE_NOT, NODE_MINUS, NODE_PLUS. *)
Inductive unop := UNot | UMinus | UPlus.
(** NODE_NUMBER, NODE_STRING, NODE_OPTION, NODE_ENV, NODE_REG, NODE_BLOB. *)
Inductive litkind := LNumber | LString | LOption | LEnv | LReg | LBlob.
(** NODE_ECHO, NODE_ECHON, NODE_ECHOMSG, NODE_ECHOERR. *)
Inductive echokind := EEcho | EEchon | EEchomsg | EEchoerr.

(** go/type.go:42-74  VimNode, one constructor per node type with the fields that
    type uses (go/vimlparser.go:252-349). *)
Inductive vnode :=
(* expressions *)
| VTernary (p : pos) (cond left right : vnode)
| VBin (o : binop) (p : pos) (left right : vnode)
| VUn (o : unop) (p : pos) (left : vnode)
| VSubscript (p : pos) (left right : vnode)
| VSlice (p : pos) (left : vnode) (r0 r1 : option vnode)
| VMethod (p : pos) (left right : vnode)
| VCall (p : pos) (left : vnode) (rlist : list vnode)
| VDot (p : pos) (left right : vnode)
| VLit (k : litkind) (p : pos) (value : text)
| VList (p : pos) (value : list vnode)
| VDict (p : pos) (value : list (vnode * vnode))
| VIdent (p : pos) (value : text)
| VCurlyName (p : pos) (value : list vnode)
| VCurlyPart (p : pos) (value : text)
| VCurlyExpr (p : pos) (value : vnode)
| VLambda (p : pos) (rlist : list vnode) (left : vnode)
| VHeredoc (p : pos) (rlist : list vnode) (op : text) (body : list vnode)
| VParen (p : pos) (value : vnode)
(* statements *)
| VToplevel (p : pos) (body : list vnode)
| VComment (p : pos) (str : text)
| VExcmd (p : pos) (ea : exarg) (str : text)
| VFunction (p : pos) (ea : exarg) (body : list vnode) (left : vnode)
            (rlist default_args : list vnode) (attr : funcattr) (endfunction : option vnode)
| VEndfunction (p : pos) (ea : exarg)
| VDelfunction (p : pos) (ea : exarg) (left : vnode)
| VReturn (p : pos) (ea : exarg) (left : option vnode)
| VExcall (p : pos) (ea : exarg) (left : vnode)
| VLet (p : pos) (ea : exarg) (op : text) (left : option vnode) (list_ : list vnode)
       (rest right : option vnode)
| VConst (p : pos) (ea : exarg) (op : text) (left : option vnode) (list_ : list vnode)
       (rest right : option vnode)
| VUnlet (p : pos) (ea : exarg) (list_ : list vnode)
| VLockvar (p : pos) (ea : exarg) (depth : Z) (list_ : list vnode)
| VUnlockvar (p : pos) (ea : exarg) (depth : Z) (list_ : list vnode)
| VIf (p : pos) (ea : exarg) (body : list vnode) (cond : vnode) (elseif : list vnode)
      (else_ endif : option vnode)
| VElseif (p : pos) (ea : exarg) (body : list vnode) (cond : vnode)
| VElse (p : pos) (ea : exarg) (body : list vnode)
| VEndif (p : pos) (ea : exarg)
| VWhile (p : pos) (ea : exarg) (body : list vnode) (cond : vnode) (endwhile : option vnode)
| VEndwhile (p : pos) (ea : exarg)
| VFor (p : pos) (ea : exarg) (body : list vnode) (left : option vnode) (list_ : list vnode)
       (rest : option vnode) (right : vnode) (endfor : option vnode)
| VEndfor (p : pos) (ea : exarg)
| VContinue (p : pos) (ea : exarg)
| VBreak (p : pos) (ea : exarg)
| VTry (p : pos) (ea : exarg) (body : list vnode) (catch : list vnode)
       (finally endtry : option vnode)
| VCatch (p : pos) (ea : exarg) (body : list vnode) (pattern : text)
| VFinally (p : pos) (ea : exarg) (body : list vnode)
| VEndtry (p : pos) (ea : exarg)
| VThrow (p : pos) (ea : exarg) (left : vnode)
| VEval (p : pos) (ea : exarg) (left : vnode)
| VEcho (k : echokind) (p : pos) (ea : exarg) (list_ : list vnode)
| VEchohl (p : pos) (ea : exarg) (str : text)
| VExecute (p : pos) (ea : exarg) (list_ : list vnode).

(** The pos field of a node. *)
Definition vpos (n : vnode) : pos :=
  match n with
  | VTernary p _ _ _ | VBin _ p _ _ | VUn _ p _ | VSubscript p _ _ | VSlice p _ _ _
  | VMethod p _ _ | VCall p _ _ | VDot p _ _ | VLit _ p _ | VList p _ | VDict p _
  | VIdent p _ | VCurlyName p _ | VCurlyPart p _ | VCurlyExpr p _ | VLambda p _ _
  | VHeredoc p _ _ _ | VParen p _ | VToplevel p _ | VComment p _ | VExcmd p _ _
  | VFunction p _ _ _ _ _ _ _ | VEndfunction p _ | VDelfunction p _ _ | VReturn p _ _
  | VExcall p _ _ | VLet p _ _ _ _ _ _ | VConst p _ _ _ _ _ _ | VUnlet p _ _
  | VLockvar p _ _ _ | VUnlockvar p _ _ _ | VIf p _ _ _ _ _ _ | VElseif p _ _ _
  | VElse p _ _ | VEndif p _ | VWhile p _ _ _ _ | VEndwhile p _ | VFor p _ _ _ _ _ _ _
  | VEndfor p _ | VContinue p _ | VBreak p _ | VTry p _ _ _ _ _ | VCatch p _ _ _
  | VFinally p _ _ | VEndtry p _ | VThrow p _ _ | VEval p _ _ | VEcho _ p _ _
  | VEchohl p _ _ | VExecute p _ _ => p
  end.
