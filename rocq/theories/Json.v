(** The output of the tool under -json: package encoding/json of the Go library applied to
    the tree (cmd/vimlparser/main.go:59-62). The library is not part of /repo; what is
    modelled is its documented behaviour on the values that occur in a tree. *)
From Verif Require Import Base Utf8 Vnode Token Ast ExprParser.

(** What differs between releases of Go: whether backspace and form feed are written \b and
    \f (Go 1.22) or \u0008 and \u000c, and how deeply arrays and objects may be nested in
    indented output (10000 from Go 1.15 on, no limit before). *)
Record release := mkRelease { r_short : bool; r_depth : option nat }.

(** A Go value as the encoder sees it. A string is its sequence of runes, with None for
    each byte that is not part of a valid UTF-8 sequence. An object is a struct (members
    in the order of the fields) or a map (members sorted by key). *)
Inductive gv :=
| GNull | GBool (b : bool) | GInt (z : Z) | GStr (s : list (option N))
| GArr (l : list gv) | GObj (l : list (text * gv)).

(** * Strings *)

(** A lower case hexadecimal digit. *)
Definition hexc (n : N) : N := if n <? 10 then C "0" + n else C "a" + (n - 10).
(** encoding/json appendString, with HTML escaping as it is by default. *)
Definition esc1 (short : bool) (o : option N) : text :=
  match o with
  | None => T "\u" ++ T "fffd"
  | Some c =>
    if (c =? C """") || (c =? C "\") then [C "\"; c]
    else if c =? 10 then T "\n" else if c =? 13 then T "\r" else if c =? 9 then T "\t"
    else if (c =? 8) && short then T "\b" else if (c =? 12) && short then T "\f"
    else if (c <? 32) || (c =? C "<") || (c =? C ">") || (c =? C "&")
      then T "\u00" ++ [hexc (c / 16); hexc (c mod 16)]
    else if c =? 8232 then T "\u" ++ T "2028" else if c =? 8233 then T "\u" ++ T "2029"
    else [c]
  end.
Definition quoted (short : bool) (s : list (option N)) : text :=
  T """" ++ flat_map (esc1 short) s ++ T """".

(** * Layout: encoding/json Indent with no prefix and four blanks (main.go:60-61) *)

Definition newline (d : nat) : text := 10 :: repeat 32 (4 * d).

(** Pieces with commas between them. *)
Fixpoint commas (l : list text) : text :=
  match l with [] => [] | [x] => x | x :: r => x ++ T "," ++ commas r end.

Fixpoint render (short : bool) (d : nat) (v : gv) : text :=
  match v with
  | GNull => T "null"
  | GBool b => if b then T "true" else T "false"
  | GInt z => itoa z
  | GStr s => quoted short s
  | GArr l =>
    match l with
    | [] => T "[]"
    | _ => T "[" ++ commas (map (fun x => newline (S d) ++ render short (S d) x) l) ++ newline d ++ T "]"
    end
  | GObj l =>
    match l with
    | [] => T "{}"
    | _ => T "{" ++
        commas (map (fun kv => match kv with (k, x) =>
           newline (S d) ++ quoted short (map Some k) ++ T ": " ++ render short (S d) x end) l) ++
        newline d ++ T "}"
    end
  end.

(** How deeply arrays and objects are nested. *)
Fixpoint nesting (v : gv) : nat :=
  match v with
  | GArr l => S (list_max (map nesting l))
  | GObj l => S (list_max (map (fun kv => match kv with (_, x) => nesting x end) l))
  | _ => O
  end.

(** Encoder.Encode with SetIndent: Marshal, then Indent, whose scanner refuses a text
    nested too deeply; a line feed follows the value. *)
Definition encode_value (r : release) (v : gv) : option text :=
  if match r_depth r with None => true | Some m => (nesting v <=? m)%nat end
  then Some (render (r_short r) O v ++ [10]) else None.

(** * The values of the types of package ast *)

Definition gtext (t : text) : gv := GStr (map Some t).
Definition gnum (n : N) : gv := GInt (Z.of_N n).

(** The runes of a file name, None for a byte that is not part of a valid sequence; the
    cases are those of Utf8.decode. *)
Fixpoint name_runes (bs : list N) : list (option N) :=
  match bs with
  | [] => []
  | b0 :: t0 =>
    if b0 <? 128 then Some b0 :: name_runes t0
    else if in_range 194 223 b0 then
      match t0 with
      | b1 :: t1 =>
        if is_cont b1 then Some ((b0 - 192) * 64 + (b1 - 128)) :: name_runes t1
        else None :: name_runes t0
      | [] => None :: name_runes t0
      end
    else if in_range 224 239 b0 then
      match t0 with
      | b1 :: b2 :: t2 =>
        if ok2_of3 b0 b1 && is_cont b2
        then Some ((b0 - 224) * 4096 + (b1 - 128) * 64 + (b2 - 128)) :: name_runes t2
        else None :: name_runes t0
      | _ => None :: name_runes t0
      end
    else if in_range 240 244 b0 then
      match t0 with
      | b1 :: b2 :: b3 :: t3 =>
        if ok2_of4 b0 b1 && is_cont b2 && is_cont b3
        then Some ((b0 - 240) * 262144 + (b1 - 128) * 4096 + (b2 - 128) * 64 + (b3 - 128)) :: name_runes t3
        else None :: name_runes t0
      | _ => None :: name_runes t0
      end
    else None :: name_runes t0
  end.

(** ast/pos.go:6-13  Pos. *)
Definition gpos (p : apos) : gv :=
  GObj [(T "Offset", gnum (ap_offset p)); (T "Line", gnum (ap_line p));
        (T "Column", gnum (ap_column p)); (T "Filename", GStr (name_runes (ap_filename p)))].

(** A pointer or an interface: nil is null. *)
Definition gopt {A} (f : A -> gv) (o : option A) : gv := match o with None => GNull | Some x => f x end.

(** A slice that is nil when it is empty: the lists that are built by append alone
    (go/export.go:139, 229, 421, 549-560, 575-595 and go/vimlparser.go:1791, 1852, 1868,
    1901, 2839). *)
Definition gnil (l : list gv) : gv := match l with [] => GNull | _ => GArr l end.
(** A slice that is made before elements are appended, and so is never nil
    (go/vimlparser.go:438, 541, 1238, 1239, 1378, 2947; go/export.go:396). *)
Definition gmade (l : list gv) : gv := GArr l.

(** ast/exarg.go:32-37  Cmd. *)
Definition gcmd (c : cmd) : gv :=
  GObj [(T "Name", gtext (c_name c)); (T "Minlen", gnum (c_minlen c));
        (T "Flags", gtext (c_flags c)); (T "Parser", gtext (c_parser c))].

(** An element of ExArg.Modifiers (go/vimlparser.go:451-529): a map, its keys sorted. *)
Definition gmodifier (m : modifier) : gv :=
  GObj (match m_bang m with None => [] | Some b => [(T "bang", gnum b)] end ++
        match m_count m with None => [] | Some z => [(T "count", GInt z)] end ++
        [(T "name", gtext (m_name m))]).

(** ast/exarg.go:4-29  ExArg. The fields that the parser never sets have the value zero or
    nil. *)
Definition gexarg (e : aexarg) : gv :=
  GObj [(T "Forceit", GBool (ae_forceit e)); (T "AddrCount", GInt 0); (T "Line1", GInt 0);
        (T "Line2", GInt 0); (T "Flags", GInt 0); (T "DoEcmdCmd", gtext (ae_do_ecmd_cmd e));
        (T "DoEcmdLnum", GInt 0); (T "Append", gnum (ae_append e));
        (T "Usefilter", GBool (ae_usefilter e)); (T "Amount", gnum (ae_amount e));
        (T "Regname", GInt 0); (T "ForceBin", gnum (ae_force_bin e));
        (T "ReadEdit", gnum (ae_read_edit e)); (T "ForceFf", gtext (ae_force_ff e));
        (T "ForceEnc", gtext (ae_force_enc e)); (T "BadChar", gtext (ae_bad_char e));
        (T "Linepos", gopt gpos (ae_linepos e)); (T "Cmdpos", gopt gpos (ae_cmdpos e));
        (T "Argpos", gopt gpos (ae_argpos e)); (T "Cmd", gopt gcmd (ae_cmd e));
        (T "Modifiers", gmade (map gmodifier (ae_modifiers e)));
        (T "Range", gmade (map gtext (ae_range e))); (T "Argopt", GNull); (T "Argcmd", GNull)].

(** ast/node.go:73-78  FuncAttr. *)
Definition gattr (a : funcattr) : gv :=
  GObj [(T "Range", GBool (a_range a)); (T "Abort", GBool (a_abort a));
        (T "Dict", GBool (a_dict a)); (T "Closure", GBool (a_closure a))].

(** token/token.go:9  Token is an int, and has no method the encoder looks for. *)
Definition gtoken (t : gtok) : gv := gnum (gtok_num t).

(** ast/node.go: the structs, their fields in order. The name of the type is not written.
    Comment (:43) embeds the interface Statement, which is nil. *)
Fixpoint gnode (n : node) : gv :=
  let o := gopt gnode in
  let E := gexarg in
  match n with
  | NFile p b => GObj [(T "Start", gpos p); (T "Body", gnil (map gnode b))]
  | NComment p s => GObj [(T "Statement", GNull); (T "Quote", gpos p); (T "Text", gtext s)]
  | NExcmd p s e => GObj [(T "Excmd", gpos p); (T "Command", gtext s); (T "ExArg", E e)]
  | NFunction p e b n ps ds a en =>
    GObj [(T "Func", gpos p); (T "ExArg", E e); (T "Body", gnil (map gnode b)); (T "Name", o n);
          (T "Params", gmade (map gnode ps)); (T "DefaultArgs", gmade (map gnode ds));
          (T "Attr", gattr a); (T "EndFunction", o en)]
  | NEndFunction p e => GObj [(T "EndFunc", gpos p); (T "ExArg", E e)]
  | NDelFunction p e n => GObj [(T "DelFunc", gpos p); (T "ExArg", E e); (T "Name", o n)]
  | NReturn p e r => GObj [(T "Return", gpos p); (T "ExArg", E e); (T "Result", o r)]
  | NExCall p e c => GObj [(T "ExCall", gpos p); (T "ExArg", E e); (T "FuncCall", o c)]
  | NLet p e op l ls rs r =>
    GObj [(T "Let", gpos p); (T "ExArg", E e); (T "Op", gtext op); (T "Left", o l);
          (T "List", gnil (map gnode ls)); (T "Rest", o rs); (T "Right", o r)]
  | NUnLet p e ls => GObj [(T "UnLet", gpos p); (T "ExArg", E e); (T "List", gnil (map gnode ls))]
  | NLockVar p e d ls =>
    GObj [(T "LockVar", gpos p); (T "ExArg", E e); (T "Depth", GInt d); (T "List", gnil (map gnode ls))]
  | NUnLockVar p e d ls =>
    GObj [(T "UnLockVar", gpos p); (T "ExArg", E e); (T "Depth", GInt d); (T "List", gnil (map gnode ls))]
  | NIf p e b c es el en =>
    GObj [(T "If", gpos p); (T "ExArg", E e); (T "Body", gnil (map gnode b)); (T "Condition", o c);
          (T "ElseIf", gnil (map gnode es)); (T "Else", o el); (T "EndIf", o en)]
  | NElseIf p e b c =>
    GObj [(T "ElseIf", gpos p); (T "ExArg", E e); (T "Body", gnil (map gnode b)); (T "Condition", o c)]
  | NElse p e b => GObj [(T "Else", gpos p); (T "ExArg", E e); (T "Body", gnil (map gnode b))]
  | NEndIf p e => GObj [(T "EndIf", gpos p); (T "ExArg", E e)]
  | NWhile p e b c en =>
    GObj [(T "While", gpos p); (T "ExArg", E e); (T "Body", gnil (map gnode b)); (T "Condition", o c);
          (T "EndWhile", o en)]
  | NEndWhile p e => GObj [(T "EndWhile", gpos p); (T "ExArg", E e)]
  | NFor p e b l ls rs r en =>
    GObj [(T "For", gpos p); (T "ExArg", E e); (T "Body", gnil (map gnode b)); (T "Left", o l);
          (T "List", gnil (map gnode ls)); (T "Rest", o rs); (T "Right", o r); (T "EndFor", o en)]
  | NEndFor p e => GObj [(T "EndFor", gpos p); (T "ExArg", E e)]
  | NContinue p e => GObj [(T "Continue", gpos p); (T "ExArg", E e)]
  | NBreak p e => GObj [(T "Break", gpos p); (T "ExArg", E e)]
  | NTry p e b cs f en =>
    GObj [(T "Try", gpos p); (T "ExArg", E e); (T "Body", gnil (map gnode b));
          (T "Catch", gnil (map gnode cs)); (T "Finally", o f); (T "EndTry", o en)]
  | NCatch p e b s =>
    GObj [(T "Catch", gpos p); (T "ExArg", E e); (T "Body", gnil (map gnode b)); (T "Pattern", gtext s)]
  | NFinally p e b => GObj [(T "Finally", gpos p); (T "ExArg", E e); (T "Body", gnil (map gnode b))]
  | NEndTry p e => GObj [(T "EndTry", gpos p); (T "ExArg", E e)]
  | NThrow p e x => GObj [(T "Throw", gpos p); (T "ExArg", E e); (T "Expr", o x)]
  | NEval p e x => GObj [(T "Eval", gpos p); (T "ExArg", E e); (T "Expr", o x)]
  | NEchoCmd p s e xs =>
    GObj [(T "Start", gpos p); (T "CmdName", gtext s); (T "ExArg", E e); (T "Exprs", gnil (map gnode xs))]
  | NEchohl p e s => GObj [(T "Echohl", gpos p); (T "ExArg", E e); (T "Name", gtext s)]
  | NExecute p e xs => GObj [(T "Execute", gpos p); (T "ExArg", E e); (T "Exprs", gnil (map gnode xs))]
  | NTernary p c l r => GObj [(T "Ternary", gpos p); (T "Condition", o c); (T "Left", o l); (T "Right", o r)]
  | NBinary l p t r => GObj [(T "Left", o l); (T "OpPos", gpos p); (T "Op", gtoken t); (T "Right", o r)]
  | NUnary p t x => GObj [(T "OpPos", gpos p); (T "Op", gtoken t); (T "X", o x)]
  | NSubscript p l r => GObj [(T "Lbrack", gpos p); (T "Left", o l); (T "Right", o r)]
  | NSlice x p l h => GObj [(T "X", o x); (T "Lbrack", gpos p); (T "Low", o l); (T "High", o h)]
  | NMethod l m p xs =>
    GObj [(T "Left", o l); (T "Method", o m); (T "Lparen", gpos p); (T "Args", gnil (map gnode xs))]
  | NCall f p xs => GObj [(T "Fun", o f); (T "Lparen", gpos p); (T "Args", gnil (map gnode xs))]
  | NDot l p r => GObj [(T "Left", o l); (T "Dot", gpos p); (T "Right", o r)]
  | NBasicLit p k s => GObj [(T "ValuePos", gpos p); (T "Kind", gtoken k); (T "Value", gtext s)]
  | NList p xs => GObj [(T "Lsquare", gpos p); (T "Values", gnil (map gnode xs))]
  | NDict p xs =>
    GObj [(T "Lcurlybrace", gpos p);
          (T "Entries", gmade (map (fun kv => match kv with (k, v) => GObj [(T "Key", o k); (T "Value", o v)] end) xs))]
  | NCurlyName p xs => GObj [(T "CurlyName", gpos p); (T "Parts", gnil (map gnode xs))]
  | NCurlyLit p s => GObj [(T "CurlyNameLit", gpos p); (T "Value", gtext s)]
  | NCurlyExpr p x => GObj [(T "CurlyNameExpr", gpos p); (T "Value", o x)]
  | NIdent p s => GObj [(T "NamePos", gpos p); (T "Name", gtext s)]
  | NLambda p xs x => GObj [(T "Lcurlybrace", gpos p); (T "Params", gmade (map gnode xs)); (T "Expr", o x)]
  | NParen p x => GObj [(T "Lparen", gpos p); (T "X", o x)]
  | NHeredoc p xs s b =>
    GObj [(T "OpPos", gpos p); (T "Flags", gmade (map gnode xs)); (T "EndMarker", gtext s);
          (T "Body", gnil (map gnode b))]
  end.

(** cmd/vimlparser/main.go:59-62: what Encode writes, None if it returns an error. *)
Definition go_json (r : release) (n : node) : option text := encode_value r (gnode n).
