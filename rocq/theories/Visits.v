(** Specification of tree traversal, as documented for Visitor and Walk (ast/walk.go:5-18). *)
From Verif Require Import Base Vnode Token Ast Nodes.

(** The children of a node in the order of the source. *)
Definition children (n : node) : list node :=
  match n with
  | NFunction _ _ b nm ps ds _ en => on nm ++ ps ++ ds ++ b ++ on en
  | NIf _ _ b c eis el en => on c ++ b ++ eis ++ on el ++ on en
  | NElseIf _ _ b c => on c ++ b
  | NWhile _ _ b c en => on c ++ b ++ on en
  | NFor _ _ b l ls rs r en => on l ++ ls ++ on rs ++ on r ++ b ++ on en
  | _ => fields n
  end.
(** The same without the default values of the parameters of a function and without the
    expression of a lambda. *)
Definition shown_children (n : node) : list node :=
  match n with
  | NFunction _ _ b nm ps _ _ en => on nm ++ ps ++ b ++ on en
  | NLambda _ ps _ => ps
  | _ => children n
  end.
Definition hidden_children (n : node) : list node :=
  match n with
  | NFunction _ _ _ _ _ ds _ _ => ds
  | NLambda _ _ x => on x
  | _ => []
  end.

(** [traverses kids visit v n s s']: in state [s], v.Visit(n) is called; if the result is a
    visitor [w], the nodes [kids n] are traversed with [w] one after the other, and then
    w.Visit(nil) is called. [s'] is the state afterwards. *)
Section Traverse.
Context {V S : Type} (kids : node -> list node) (visit : V -> option node -> S -> option V * S).
Inductive traverses : V -> node -> S -> S -> Prop :=
| tr_declined v n s s' : visit v (Some n) s = (None, s') -> traverses v n s s'
| tr_entered v n s w s1 s2 x s3 :
    visit v (Some n) s = (Some w, s1) -> traverse_all w (kids n) s1 s2 ->
    visit w None s2 = (x, s3) -> traverses v n s s3
with traverse_all : V -> list node -> S -> S -> Prop :=
| ta_nil w s : traverse_all w [] s s
| ta_cons w n l s s1 s2 : traverses w n s s1 -> traverse_all w l s1 s2 -> traverse_all w (n :: l) s s2.
End Traverse.

(** The nodes reached from the root through nodes that satisfy [enter]. *)
Inductive reached (kids : node -> list node) (enter : node -> bool) (root : node) : node -> Prop :=
| re_root : reached kids enter root root
| re_child m n : reached kids enter root m -> enter m = true -> In n (kids m) -> reached kids enter root n.

(** The preorder of a tree, cut at the nodes that do not satisfy [enter]. *)
Inductive preorder (kids : node -> list node) (enter : node -> bool) : node -> list node -> Prop :=
| po_cut n : enter n = false -> preorder kids enter n [n]
| po_node n ls : enter n = true -> Forall2 (preorder kids enter) (kids n) ls -> preorder kids enter n (n :: concat ls).

(** The visitor of a recorder: it keeps a list of the nodes it is called with. *)
Definition recorder (enter : node -> bool) (n : node) (log : list node) : bool * list node :=
  (enter n, log ++ [n]).
