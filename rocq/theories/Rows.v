(** Specification vocabulary: the positions of a command and of the expressions on its line,
    in the order in which they are written. *)
From Verif Require Import Base Vnode Ast Nodes.

(** Parameters of a function and their default values: the defaults belong to the last
    [length ds] of the [named] parameters at the front of [ps]. *)
Fixpoint paired {A} (named : nat) (ps ds : list (list A)) : list A :=
  match ps with
  | [] => concat ds
  | p :: t =>
    match ds with
    | d :: u => if Nat.leb named (length ds) then p ++ d ++ paired (pred named) t u
                else p ++ paired (pred named) t ds
    | [] => p ++ paired (pred named) t []
    end
  end.
Definition is_dots (n : node) : bool := match n with NIdent _ s => text_eqb s (T "...") | _ => false end.
Definition named_params (ps : list node) : nat := length (filter (fun n => negb (is_dots n)) ps).

(** The positions in the order of the text: an operator stands between its operands, a
    bracket or parenthesis behind what it is applied to. The blocks of a command are not part
    of its row. The positions of a name with braces, of a part in braces and of a
    here-document are left out: they are those of their first character, of the place behind
    the brace and of the :let. *)
Definition or (f : node -> list apos) (o : option node) : list apos :=
  match o with Some x => f x | None => [] end.
Fixpoint row (n : node) : list apos :=
  match n with
  | NFile p _ | NComment p _ | NExcmd p _ _ | NEndFunction p _ | NEndIf p _ | NEndWhile p _ | NEndFor p _
  | NContinue p _ | NBreak p _ | NEndTry p _ | NEchohl p _ _ | NElse p _ _ | NTry p _ _ _ _ _
  | NCatch p _ _ _ | NFinally p _ _ | NBasicLit p _ _ | NCurlyLit p _ | NIdent p _ => [p]
  | NFunction p _ _ nm ps ds _ _ => p :: or row nm ++ paired (named_params ps) (map row ps) (map row ds)
  | NDelFunction p _ x | NReturn p _ x | NExCall p _ x | NIf p _ _ x _ _ _ | NElseIf p _ _ x
  | NWhile p _ _ x _ | NThrow p _ x | NEval p _ x | NUnary p _ x | NParen p x => p :: or row x
  | NLet p _ _ l ls rs r | NFor p _ _ l ls rs r _ =>
    p :: or row l ++ flat_map row ls ++ or row rs ++ or row r
  | NUnLet p _ xs | NLockVar p _ _ xs | NUnLockVar p _ _ xs | NEchoCmd p _ _ xs | NExecute p _ xs
  | NList p xs => p :: flat_map row xs
  | NTernary p c l r => or row c ++ p :: or row l ++ or row r
  | NBinary l p _ r | NSubscript p l r | NDot l p r => or row l ++ p :: or row r
  | NSlice x p lo hi => or row x ++ p :: or row lo ++ or row hi
  | NMethod l m p args => or row l ++ or row m ++ p :: flat_map row args
  | NCall f p args => or row f ++ p :: flat_map row args
  | NDict p kvs => p :: flat_map (fun kv => match kv with (k, v) => or row k ++ or row v end) kvs
  | NCurlyName _ ps => flat_map row ps
  | NCurlyExpr _ x => or row x
  | NLambda p ps x => p :: flat_map row ps ++ or row x
  | NHeredoc _ fl _ b => flat_map row fl ++ flat_map row b
  end.

(** The nodes whose own position is not in their row. *)
Definition outside_row (n : node) : bool :=
  match n with NCurlyName _ _ | NCurlyExpr _ _ | NHeredoc _ _ _ _ => true | _ => false end.
(** The commands of a node, without comments. *)
Definition commands (n : node) : list node :=
  filter (fun x => match x with NComment _ _ => false | _ => true end) (order n).
