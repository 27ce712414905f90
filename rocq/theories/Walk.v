(** Tree traversal: ast/walk.go. *)
From Verif Require Import Base Vnode Token Ast.

Definition olist {A} (o : option A) : list A := match o with None => [] | Some x => [x] end.

(** ast/walk.go:32-218: the children visited by Walk, in the order of the visits; a nil
    child is skipped (:20-22). The DefaultArgs of a function and the body of a lambda are not
    among them. A nil pointer in a field of pointer type (EndFunction, FuncCall, EndWhile,
    EndFor, DotExpr.Right), which the Go code would hand to Visit, is not distinguished from
    a nil interface; no tree made by the parser has one. *)
Definition walk_children (n : node) : list node :=
  match n with
  | NFile _ b => b
  | NFunction _ _ b name ps _ _ en => olist name ++ ps ++ b ++ olist en
  | NDelFunction _ _ x | NReturn _ _ x | NExCall _ _ x => olist x
  | NLet _ _ _ l ls rs r => olist l ++ ls ++ olist rs ++ olist r
  | NUnLet _ _ ls | NLockVar _ _ _ ls | NUnLockVar _ _ _ ls => ls
  | NIf _ _ b c eis el en => olist c ++ b ++ eis ++ olist el ++ olist en
  | NElseIf _ _ b c => olist c ++ b
  | NElse _ _ b => b
  | NWhile _ _ b c en => olist c ++ b ++ olist en
  | NFor _ _ b l ls rs r en => olist l ++ ls ++ olist rs ++ olist r ++ b ++ olist en
  | NTry _ _ b cs fi en => b ++ cs ++ olist fi ++ olist en
  | NCatch _ _ b _ | NFinally _ _ b => b
  | NThrow _ _ x | NEval _ _ x => olist x
  | NEchoCmd _ _ _ ls | NExecute _ _ ls => ls
  | NTernary _ c l r => olist c ++ olist l ++ olist r
  | NBinary l _ _ r => olist l ++ olist r
  | NUnary _ _ x => olist x
  | NSubscript _ l r => olist l ++ olist r
  | NSlice x _ lo hi => olist x ++ olist lo ++ olist hi
  | NMethod l m _ args => olist l ++ olist m ++ args
  | NCall f _ args => olist f ++ args
  | NDot l _ r => olist l ++ olist r
  | NList _ vs => vs
  | NDict _ es => flat_map (fun e => olist (fst e) ++ olist (snd e)) es
  | NCurlyName _ ps => ps
  | NCurlyExpr _ v => olist v
  | NLambda _ ps _ => ps
  | NParen _ x => olist x
  | NHeredoc _ fs _ b => fs ++ b
  | NComment _ _ | NExcmd _ _ _ | NEndFunction _ _ | NEndIf _ _ | NEndWhile _ _ | NEndFor _ _
  | NContinue _ _ | NBreak _ _ | NEndTry _ _ | NEchohl _ _ _ | NBasicLit _ _ _ | NCurlyLit _ _
  | NIdent _ _ => []
  end.

(** A Visitor: a value of some type V with the method Visit. Its state is threaded through
    the calls. Visit(nil) is the call with None; a nil result is None. *)
Section Walk.
Context {V S : Type} (visit : V -> option node -> S -> option V * S).

Fixpoint walk_list (w : node -> S -> option S) (l : list node) (s : S) : option S :=
  match l with
  | [] => Some s
  | x :: t => match w x s with None => None | Some s' => walk_list w t s' end
  end.

(** ast/walk.go:19-220  Walk; None when the fuel (a bound on the depth) is used up. *)
Fixpoint walk (fuel : nat) (v : V) (n : node) (s : S) : option S :=
  match fuel with
  | O => None
  | Datatypes.S k =>
    match visit v (Some n) s with
    | (None, s') => Some s'
    | (Some w, s') =>
      match walk_list (walk k w) (walk_children n) s' with
      | None => None
      | Some s'' => Some (snd (visit w None s''))
      end
    end
  end.
End Walk.

(** ast/walk.go:242-258  inspector.Visit; Inspect. The function f is called on non-nil nodes
    only. *)
Definition inspector_visit {S} (f : node -> S -> bool * S) (v : unit) (n : option node) (s : S)
  : option unit * S :=
  match n with
  | None => (None, s)
  | Some x => let (b, s') := f x s in (if b then Some tt else None, s')
  end.
Definition inspect {S} (fuel : nat) (n : node) (f : node -> S -> bool * S) (s : S) : option S :=
  walk (inspector_visit f) fuel tt n s.
