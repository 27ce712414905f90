(** Property theorems: Walk and Inspect. The vocabulary of the statements is in Visits.v and
    Nodes.v. *)
From Coq Require Import Permutation.
From Verif Require Import Base Utf8 CharClass Reader Vnode Token Ast Api Walk Places Nodes Visits WalkProof NodeFacts PropAst.

(** For the refutations: a node of the AST that Inspect does not show. *)
Lemma walk_same {V S} (visit : V -> option node -> S -> option V * S) k k' v n s r r' :
  walk visit k v n s = Some r -> walk visit k' v n s = Some r' -> r = r'.
Proof.
  intros H H'. destruct (Nat.le_gt_cases k k') as [L|L].
  - apply (walk_more _ k k') in H; auto. congruence.
  - apply (walk_more _ k' k) in H'; auto. congruence. apply PeanoNat.Nat.lt_le_incl; auto.
Qed.
Lemma missing src test :
  match ParseFile src [] None with
  | Returned r => existsb test (subs 6 r) &&
    match inspect 9 r (recorder (fun _ => true)) [] with Some l => negb (existsb test l) | None => false end
  | _ => false
  end = true ->
  exists root n, ParseFile src [] None = Returned root /\ within root n /\
    forall k log, inspect k root (recorder (fun _ => true)) [] = Some log -> ~ In n log.
Proof.
  destruct (ParseFile src [] None) as [r| |]; try discriminate. intros H.
  apply andb_prop in H. destruct H as [H1 H2]. apply existsb_exists in H1. destruct H1 as [n [H1 Hn]].
  exists r, n. split; auto. split; [eapply subs_within; [constructor|exact H1]|]. intros k log HI Hin.
  destruct (inspect 9 r (recorder (fun _ => true)) []) as [l|] eqn:E; [|discriminate].
  assert (l = log) by (eapply walk_same; [exact E|exact HI]). subst l.
  apply negb_true_iff in H2. assert (existsb test log = true) by (apply existsb_exists; eauto). congruence.
Qed.

(** C28 does not hold: the expression of a lambda is a node of the AST, and Inspect with a
    function that always returns true does not show it. Neither does it show the default
    value of a parameter. *)
Theorem C28_walk_refuted : exists src root n,
  ParseFile src [] None = Returned root /\ within root n /\
  forall k log, inspect k root (recorder (fun _ => true)) [] = Some log -> ~ In n log.
Proof.
  exists (mkSource (T "eval {-> x}") false).
  apply (missing _ (fun n => match n with NIdent _ _ => true | _ => false end)). vm_compute. reflexivity.
Qed.
Print Assumptions C28_walk_refuted.
Theorem C28_default_refuted : exists src root n,
  ParseFile src [] None = Returned root /\ within root n /\
  forall k log, inspect k root (recorder (fun _ => true)) [] = Some log -> ~ In n log.
Proof.
  exists (mkSource (T "function F(a = 1)|endfunction") false).
  apply (missing _ (fun n => match n with NBasicLit _ _ _ => true | _ => false end)). vm_compute. reflexivity.
Qed.
Print Assumptions C28_default_refuted.

(** The part that holds, for every node, every visitor and every state of it: Walk ends, and
    makes the calls of its documentation, the children being those of the source in their
    order, without the default values and the expressions of lambdas. *)
Theorem C28_walk_partial : forall (V S : Type) (visit : V -> option node -> S -> option V * S) v n s,
  exists k s', (forall k', (k <= k')%nat -> walk visit k' v n s = Some s') /\
    traverses shown_children visit v n s s'.
Proof.
  intros. destruct (walk_enough visit n v s) as [k [r E]]. exists k, r. split.
  - intros k' L. exact (walk_more visit k k' v n s r L E).
  - exact (walk_traverses visit k v n s r E).
Qed.
Print Assumptions C28_walk_partial.
(** Nothing else is left out or shown twice. *)
Theorem C28_children : forall n,
  Permutation (children n) (fields n) /\ Permutation (shown_children n ++ hidden_children n) (fields n).
Proof. intros n. exact (conj (children_fields n) (shown_hidden n)). Qed.
Print Assumptions C28_children.
(** Inspect with any predicate shows the preorder of the tree cut at the nodes on which the
    predicate is false, and so exactly the nodes all of whose ancestors satisfy it. *)
Theorem C28_inspect_partial : forall enter root, exists k log,
  (forall k', (k <= k')%nat -> inspect k' root (recorder enter) [] = Some log) /\
  preorder shown_children enter root log /\ forall n, In n log <-> reached shown_children enter root n.
Proof.
  intros. destruct (inspect_result enter root) as [k [l [E P]]]. exists k, l. split; [|split; auto].
  - intros k' L. exact (walk_more _ k k' _ _ _ _ L E).
  - apply preorder_reached; auto. exact shown_field.
Qed.
Print Assumptions C28_inspect_partial.
(** Inspect shows the commands and comments of an AST in the order of C13. *)
Theorem C28_statements : forall bs fails file root k log,
  accepted bs fails file root -> is_expr root = false ->
  inspect k root (recorder (fun _ => true)) [] = Some log -> filter (fun n => negb (is_expr n)) log = order root.
Proof.
  intros bs fails file root k log HA Hs H.
  destruct (inspect_result (fun _ => true) root) as [k' [l [E P]]].
  assert (l = log) by (eapply walk_same; [exact E|exact H]).
  subst l. assert (Ty : all_typed root) by (intros m; exact (node_typed bs fails file root HA m)).
  etransitivity; [exact (preorder_order root log Ty P)|]. unfold stmts_of. rewrite Hs. reflexivity.
Qed.
Print Assumptions C28_statements.
(** A tree with 16 nodes, none of them hidden; and one cut at its :if. *)
Example C28_case : exists root l l',
  accepted (T "if x|echo 1 + y[2]|else|call F(3)|endif|"" c") false [] root /\
  inspect 9 root (recorder (fun _ => true)) [] = Some l /\ length l = 16%nat /\
  inspect 9 root (recorder (fun n => match n with NIf _ _ _ _ _ _ _ => false | _ => true end)) [] = Some l' /\ length l' = 3%nat.
Proof.
  do 3 eexists. split; [left; exists None; vm_compute; reflexivity|].
  do 3 (split; [vm_compute; reflexivity|]). vm_compute. reflexivity.
Qed.
