(** Specification: trees up to positions, and texts with their continuation lines joined. *)
From Verif Require Import Base CharClass Vnode Token Ast Places Api.

(** * Trees up to positions *)

(** A tree with each of its positions changed. *)
Definition map_exarg (g : apos -> apos) (e : aexarg) : aexarg :=
  mkAEa (ae_forceit e) (ae_do_ecmd_cmd e) (ae_append e) (ae_usefilter e) (ae_amount e)
    (ae_force_bin e) (ae_read_edit e) (ae_force_ff e) (ae_force_enc e) (ae_bad_char e)
    (option_map g (ae_linepos e)) (option_map g (ae_cmdpos e)) (option_map g (ae_argpos e))
    (ae_cmd e) (ae_modifiers e) (ae_range e).
Fixpoint map_node (g : apos -> apos) (n : node) : node :=
  let m := map_node g in
  let o := option_map (map_node g) in
  let l := map (map_node g) in
  let e := map_exarg g in
  match n with
  | NFile p b => NFile (g p) (l b)
  | NComment p s => NComment (g p) s
  | NExcmd p s a => NExcmd (g p) s (e a)
  | NFunction p a b n ps ds at_ en => NFunction (g p) (e a) (l b) (o n) (l ps) (l ds) at_ (o en)
  | NEndFunction p a => NEndFunction (g p) (e a)
  | NDelFunction p a n => NDelFunction (g p) (e a) (o n)
  | NReturn p a r => NReturn (g p) (e a) (o r)
  | NExCall p a c => NExCall (g p) (e a) (o c)
  | NLet p a op x xs r v => NLet (g p) (e a) op (o x) (l xs) (o r) (o v)
  | NUnLet p a xs => NUnLet (g p) (e a) (l xs)
  | NLockVar p a d xs => NLockVar (g p) (e a) d (l xs)
  | NUnLockVar p a d xs => NUnLockVar (g p) (e a) d (l xs)
  | NIf p a b c es el en => NIf (g p) (e a) (l b) (o c) (l es) (o el) (o en)
  | NElseIf p a b c => NElseIf (g p) (e a) (l b) (o c)
  | NElse p a b => NElse (g p) (e a) (l b)
  | NEndIf p a => NEndIf (g p) (e a)
  | NWhile p a b c en => NWhile (g p) (e a) (l b) (o c) (o en)
  | NEndWhile p a => NEndWhile (g p) (e a)
  | NFor p a b x xs r v en => NFor (g p) (e a) (l b) (o x) (l xs) (o r) (o v) (o en)
  | NEndFor p a => NEndFor (g p) (e a)
  | NContinue p a => NContinue (g p) (e a)
  | NBreak p a => NBreak (g p) (e a)
  | NTry p a b cs f en => NTry (g p) (e a) (l b) (l cs) (o f) (o en)
  | NCatch p a b s => NCatch (g p) (e a) (l b) s
  | NFinally p a b => NFinally (g p) (e a) (l b)
  | NEndTry p a => NEndTry (g p) (e a)
  | NThrow p a x => NThrow (g p) (e a) (o x)
  | NEval p a x => NEval (g p) (e a) (o x)
  | NEchoCmd p s a xs => NEchoCmd (g p) s (e a) (l xs)
  | NEchohl p a s => NEchohl (g p) (e a) s
  | NExecute p a xs => NExecute (g p) (e a) (l xs)
  | NTernary p a b c => NTernary (g p) (o a) (o b) (o c)
  | NBinary a p t b => NBinary (o a) (g p) t (o b)
  | NUnary p t a => NUnary (g p) t (o a)
  | NSubscript p a b => NSubscript (g p) (o a) (o b)
  | NSlice a p b c => NSlice (o a) (g p) (o b) (o c)
  | NMethod a b p xs => NMethod (o a) (o b) (g p) (l xs)
  | NCall a p xs => NCall (o a) (g p) (l xs)
  | NDot a p b => NDot (o a) (g p) (o b)
  | NBasicLit p k s => NBasicLit (g p) k s
  | NList p xs => NList (g p) (l xs)
  | NDict p xs => NDict (g p) (map (fun kv => match kv with (k, v) => (o k, o v) end) xs)
  | NCurlyName p xs => NCurlyName (g p) (l xs)
  | NCurlyLit p s => NCurlyLit (g p) s
  | NCurlyExpr p a => NCurlyExpr (g p) (o a)
  | NIdent p s => NIdent (g p) s
  | NLambda p xs a => NLambda (g p) (l xs) (o a)
  | NParen p a => NParen (g p) (o a)
  | NHeredoc p xs s b => NHeredoc (g p) (l xs) s (l b)
  end.

(** A tree without its positions: offset, line and column of every position become 0. *)
Definition no_place (p : apos) : apos := mkAPos 0 0 0 (ap_filename p).
Definition bare (n : node) : node := map_node no_place n.

(** The same result up to lines and columns: the same tree; or an error with the same
    message at the same character, counted over the characters and line ends that are
    parsed; or the same other error. *)
Definition same_answer {A} (strip : A -> A) (r r' : api_result A) : Prop :=
  match r, r' with
  | Returned n, Returned n' => strip n = strip n'
  | Failed (ErrVimlParser f off _ _ m), Failed (ErrVimlParser f' off' _ _ m') => f = f' /\ off = off' /\ m = m'
  | Failed (ErrOther k), Failed (ErrOther k') => k = k'
  | _, _ => False
  end.

(** * Joined lines *)

(** The next line, if any, starts afresh. *)
Definition starts_line (lines : list text) : Prop := forall l r, lines = l :: r -> ~ is_continuation l.

(** [continued lines ts rest]: [lines] starts with continuation lines, whose texts after
    the backslash are [ts]; [rest] are the lines after them. *)
Inductive continued : list text -> list text -> list text -> Prop :=
| ct_stop lines : starts_line lines -> continued lines [] lines
| ct_more l ws t lines ts rest : continues l ws t -> continued lines ts rest ->
    continued (l :: lines) (t :: ts) rest.

(** [unbroken lines js]: [js] are the lines with every continuation line appended to the
    line it continues. *)
Inductive unbroken : list text -> list text -> Prop :=
| ub_nil : unbroken [] []
| ub_line l lines ts rest js : continued lines ts rest -> unbroken rest js ->
    unbroken (l :: lines) ((l ++ concat ts) :: js).
