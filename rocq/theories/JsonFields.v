(** Specification of C75: the fields of the structs of package ast, and the JSON value that
    shows them. The tables below are the declarations in ast/node.go, ast/pos.go and
    ast/exarg.go, field by field and in their order; nothing here refers to the model of the
    encoder. *)
From Verif Require Import Base Vnode Token Ast Places JsonSpec.

(** The content of a field. *)
Inductive field :=
| FNull                       (* a field that is never set: nil *)
| FBool (b : bool)
| FInt (z : Z)
| FText (t : text)
| FTok (t : gtok)             (* a token, written as its number (C37) *)
| FName (f : list N)          (* the name of a file: bytes *)
| FPos (p : apos)
| FMaybePos (o : option apos)
| FMaybeCmd (o : option cmd)
| FTexts (l : list text)
| FMods (l : list modifier)
| FAttr (a : funcattr)
| FArg (e : aexarg)
| FNode (o : option node)     (* a node or nil *)
| FNodes (l : list node)
| FEntries (l : list (option node * option node)).

(** ast/pos.go:6-13. *)
Definition pos_fields (p : apos) : list (text * field) :=
  [(T "Offset", FInt (Z.of_N (ap_offset p))); (T "Line", FInt (Z.of_N (ap_line p)));
   (T "Column", FInt (Z.of_N (ap_column p))); (T "Filename", FName (ap_filename p))].

(** ast/exarg.go:32-37. *)
Definition cmd_fields (c : cmd) : list (text * field) :=
  [(T "Name", FText (c_name c)); (T "Minlen", FInt (Z.of_N (c_minlen c)));
   (T "Flags", FText (c_flags c)); (T "Parser", FText (c_parser c))].

(** A modifier in front of a command: its name, and the bang and the count if it has them. *)
Definition mod_fields (m : modifier) : list (text * field) :=
  match m_bang m with None => [] | Some b => [(T "bang", FInt (Z.of_N b))] end ++
  match m_count m with None => [] | Some z => [(T "count", FInt z)] end ++
  [(T "name", FText (m_name m))].

(** ast/node.go:73-78. *)
Definition attr_fields (a : funcattr) : list (text * field) :=
  [(T "Range", FBool (a_range a)); (T "Abort", FBool (a_abort a)); (T "Dict", FBool (a_dict a));
   (T "Closure", FBool (a_closure a))].

(** ast/exarg.go:4-29. *)
Definition arg_fields (e : aexarg) : list (text * field) :=
  [(T "Forceit", FBool (ae_forceit e)); (T "AddrCount", FInt 0); (T "Line1", FInt 0);
   (T "Line2", FInt 0); (T "Flags", FInt 0); (T "DoEcmdCmd", FText (ae_do_ecmd_cmd e));
   (T "DoEcmdLnum", FInt 0); (T "Append", FInt (Z.of_N (ae_append e)));
   (T "Usefilter", FBool (ae_usefilter e)); (T "Amount", FInt (Z.of_N (ae_amount e)));
   (T "Regname", FInt 0); (T "ForceBin", FInt (Z.of_N (ae_force_bin e)));
   (T "ReadEdit", FInt (Z.of_N (ae_read_edit e))); (T "ForceFf", FText (ae_force_ff e));
   (T "ForceEnc", FText (ae_force_enc e)); (T "BadChar", FText (ae_bad_char e));
   (T "Linepos", FMaybePos (ae_linepos e)); (T "Cmdpos", FMaybePos (ae_cmdpos e));
   (T "Argpos", FMaybePos (ae_argpos e)); (T "Cmd", FMaybeCmd (ae_cmd e));
   (T "Modifiers", FMods (ae_modifiers e)); (T "Range", FTexts (ae_range e));
   (T "Argopt", FNull); (T "Argcmd", FNull)].

(** ast/node.go:493-497. *)
Definition entry_fields (kv : option node * option node) : list (text * field) :=
  [(T "Key", FNode (fst kv)); (T "Value", FNode (snd kv))].

(** ast/node.go:35-570. *)
Definition node_fields (n : node) : list (text * field) :=
  match n with
  | NFile start body =>
      [(T "Start", FPos start); (T "Body", FNodes body)]
  | NComment quote text_ =>
      [(T "Statement", FNull); (T "Quote", FPos quote); (T "Text", FText text_)]
  | NExcmd p command ea =>
      [(T "Excmd", FPos p); (T "Command", FText command); (T "ExArg", FArg ea)]
  | NFunction p ea body name params default_args attr endfunction =>
      [(T "Func", FPos p); (T "ExArg", FArg ea); (T "Body", FNodes body); (T "Name", FNode name);
       (T "Params", FNodes params); (T "DefaultArgs", FNodes default_args); (T "Attr", FAttr attr);
       (T "EndFunction", FNode endfunction)]
  | NEndFunction p ea =>
      [(T "EndFunc", FPos p); (T "ExArg", FArg ea)]
  | NDelFunction p ea name =>
      [(T "DelFunc", FPos p); (T "ExArg", FArg ea); (T "Name", FNode name)]
  | NReturn p ea result =>
      [(T "Return", FPos p); (T "ExArg", FArg ea); (T "Result", FNode result)]
  | NExCall p ea funccall =>
      [(T "ExCall", FPos p); (T "ExArg", FArg ea); (T "FuncCall", FNode funccall)]
  | NLet p ea op left_ list_ rest right_ =>
      [(T "Let", FPos p); (T "ExArg", FArg ea); (T "Op", FText op); (T "Left", FNode left_);
       (T "List", FNodes list_); (T "Rest", FNode rest); (T "Right", FNode right_)]
  | NUnLet p ea list_ =>
      [(T "UnLet", FPos p); (T "ExArg", FArg ea); (T "List", FNodes list_)]
  | NLockVar p ea depth list_ =>
      [(T "LockVar", FPos p); (T "ExArg", FArg ea); (T "Depth", FInt depth); (T "List", FNodes list_)]
  | NUnLockVar p ea depth list_ =>
      [(T "UnLockVar", FPos p); (T "ExArg", FArg ea); (T "Depth", FInt depth); (T "List", FNodes list_)]
  | NIf p ea body condition elseif else_ endif =>
      [(T "If", FPos p); (T "ExArg", FArg ea); (T "Body", FNodes body); (T "Condition", FNode condition);
       (T "ElseIf", FNodes elseif); (T "Else", FNode else_); (T "EndIf", FNode endif)]
  | NElseIf p ea body condition =>
      [(T "ElseIf", FPos p); (T "ExArg", FArg ea); (T "Body", FNodes body);
       (T "Condition", FNode condition)]
  | NElse p ea body =>
      [(T "Else", FPos p); (T "ExArg", FArg ea); (T "Body", FNodes body)]
  | NEndIf p ea =>
      [(T "EndIf", FPos p); (T "ExArg", FArg ea)]
  | NWhile p ea body condition endwhile =>
      [(T "While", FPos p); (T "ExArg", FArg ea); (T "Body", FNodes body);
       (T "Condition", FNode condition); (T "EndWhile", FNode endwhile)]
  | NEndWhile p ea =>
      [(T "EndWhile", FPos p); (T "ExArg", FArg ea)]
  | NFor p ea body left_ list_ rest right_ endfor =>
      [(T "For", FPos p); (T "ExArg", FArg ea); (T "Body", FNodes body); (T "Left", FNode left_);
       (T "List", FNodes list_); (T "Rest", FNode rest); (T "Right", FNode right_);
       (T "EndFor", FNode endfor)]
  | NEndFor p ea =>
      [(T "EndFor", FPos p); (T "ExArg", FArg ea)]
  | NContinue p ea =>
      [(T "Continue", FPos p); (T "ExArg", FArg ea)]
  | NBreak p ea =>
      [(T "Break", FPos p); (T "ExArg", FArg ea)]
  | NTry p ea body catch finally endtry =>
      [(T "Try", FPos p); (T "ExArg", FArg ea); (T "Body", FNodes body); (T "Catch", FNodes catch);
       (T "Finally", FNode finally); (T "EndTry", FNode endtry)]
  | NCatch p ea body pattern =>
      [(T "Catch", FPos p); (T "ExArg", FArg ea); (T "Body", FNodes body); (T "Pattern", FText pattern)]
  | NFinally p ea body =>
      [(T "Finally", FPos p); (T "ExArg", FArg ea); (T "Body", FNodes body)]
  | NEndTry p ea =>
      [(T "EndTry", FPos p); (T "ExArg", FArg ea)]
  | NThrow p ea expr =>
      [(T "Throw", FPos p); (T "ExArg", FArg ea); (T "Expr", FNode expr)]
  | NEval p ea expr =>
      [(T "Eval", FPos p); (T "ExArg", FArg ea); (T "Expr", FNode expr)]
  | NEchoCmd p cmdname ea exprs =>
      [(T "Start", FPos p); (T "CmdName", FText cmdname); (T "ExArg", FArg ea); (T "Exprs", FNodes exprs)]
  | NEchohl p ea name =>
      [(T "Echohl", FPos p); (T "ExArg", FArg ea); (T "Name", FText name)]
  | NExecute p ea exprs =>
      [(T "Execute", FPos p); (T "ExArg", FArg ea); (T "Exprs", FNodes exprs)]
  | NTernary p condition left_ right_ =>
      [(T "Ternary", FPos p); (T "Condition", FNode condition); (T "Left", FNode left_);
       (T "Right", FNode right_)]
  | NBinary left_ p op right_ =>
      [(T "Left", FNode left_); (T "OpPos", FPos p); (T "Op", FTok op); (T "Right", FNode right_)]
  | NUnary p op x =>
      [(T "OpPos", FPos p); (T "Op", FTok op); (T "X", FNode x)]
  | NSubscript p left_ right_ =>
      [(T "Lbrack", FPos p); (T "Left", FNode left_); (T "Right", FNode right_)]
  | NSlice x p low high =>
      [(T "X", FNode x); (T "Lbrack", FPos p); (T "Low", FNode low); (T "High", FNode high)]
  | NMethod left_ method p args =>
      [(T "Left", FNode left_); (T "Method", FNode method); (T "Lparen", FPos p); (T "Args", FNodes args)]
  | NCall fun_ p args =>
      [(T "Fun", FNode fun_); (T "Lparen", FPos p); (T "Args", FNodes args)]
  | NDot left_ p right_ =>
      [(T "Left", FNode left_); (T "Dot", FPos p); (T "Right", FNode right_)]
  | NBasicLit p kind value =>
      [(T "ValuePos", FPos p); (T "Kind", FTok kind); (T "Value", FText value)]
  | NList p values =>
      [(T "Lsquare", FPos p); (T "Values", FNodes values)]
  | NDict p entries =>
      [(T "Lcurlybrace", FPos p); (T "Entries", FEntries entries)]
  | NCurlyName p parts =>
      [(T "CurlyName", FPos p); (T "Parts", FNodes parts)]
  | NCurlyLit p value =>
      [(T "CurlyNameLit", FPos p); (T "Value", FText value)]
  | NCurlyExpr p value =>
      [(T "CurlyNameExpr", FPos p); (T "Value", FNode value)]
  | NIdent p name =>
      [(T "NamePos", FPos p); (T "Name", FText name)]
  | NLambda p params expr =>
      [(T "Lcurlybrace", FPos p); (T "Params", FNodes params); (T "Expr", FNode expr)]
  | NParen p x =>
      [(T "Lparen", FPos p); (T "X", FNode x)]
  | NHeredoc p flags endmarker body =>
      [(T "OpPos", FPos p); (T "Flags", FNodes flags); (T "EndMarker", FText endmarker);
       (T "Body", FNodes body)]
  end.

(** A whole number in decimal. *)
Definition natural (s : text) (n : N) : Prop :=
  digits s /\ s <> [] /\ n = fold_left (fun v d => 10 * v + (d - C "0")) s 0.
Definition whole (s : text) (z : Z) : Prop :=
  (exists n, natural s n /\ z = Z.of_N n) \/ (exists s' n, s = T "-" ++ s' /\ natural s' n /\ z = (- Z.of_N n)%Z).

(** [shows x v]: the value [v] shows the content [x] of a field. [object fs l]: the members
    [l] of an object are the fields [fs]: the same names in the same order, and each value
    shows the field. A list without elements may be shown as null. *)
Inductive shows : field -> jv -> Prop :=
| sh_null : shows FNull JNull
| sh_bool b : shows (FBool b) (JBool b)
| sh_int z s : whole s z -> shows (FInt z) (JNum s)
| sh_text t : shows (FText t) (JStr t)
| sh_tok t s : natural s (gtok_num t) -> shows (FTok t) (JNum s)
| sh_name f s : (forall t, utf8 f t -> s = t) -> shows (FName f) (JStr s)
| sh_pos p l : object (pos_fields p) l -> shows (FPos p) (JObj l)
| sh_nopos : shows (FMaybePos None) JNull
| sh_apos p v : shows (FPos p) v -> shows (FMaybePos (Some p)) v
| sh_nocmd : shows (FMaybeCmd None) JNull
| sh_cmd c l : object (cmd_fields c) l -> shows (FMaybeCmd (Some c)) (JObj l)
| sh_texts l : shows (FTexts l) (JArr (map JStr l))
| sh_mods ms vs : mods ms vs -> shows (FMods ms) (JArr vs)
| sh_attr a l : object (attr_fields a) l -> shows (FAttr a) (JObj l)
| sh_arg e l : object (arg_fields e) l -> shows (FArg e) (JObj l)
| sh_nonode : shows (FNode None) JNull
| sh_node n l : object (node_fields n) l -> shows (FNode (Some n)) (JObj l)
| sh_nonodes : shows (FNodes []) JNull
| sh_nodes ns vs : each ns vs -> shows (FNodes ns) (JArr vs)
| sh_entries es vs : entries es vs -> shows (FEntries es) (JArr vs)
with object : list (text * field) -> list (text * jv) -> Prop :=
| ob_nil : object [] []
| ob_cons k x v fs l : shows x v -> object fs l -> object ((k, x) :: fs) ((k, v) :: l)
with mods : list modifier -> list jv -> Prop :=
| mo_nil : mods [] []
| mo_cons m l ms vs : object (mod_fields m) l -> mods ms vs -> mods (m :: ms) (JObj l :: vs)
with each : list node -> list jv -> Prop :=
| ea_nil : each [] []
| ea_cons n v ns vs : shows (FNode (Some n)) v -> each ns vs -> each (n :: ns) (v :: vs)
with entries : list (option node * option node) -> list jv -> Prop :=
| en_nil : entries [] []
| en_cons kv l es vs : object (entry_fields kv) l -> entries es vs -> entries (kv :: es) (JObj l :: vs).
