(** C54: the positions of a tree, read in the order in which its parts are written, are
    those of the text in source order. *)
From Verif Require Import Base Reader Vnode Token Ast Api Places Nodes Rows RowProof PropAst.

(** All commands of a file with the expressions on their lines: every position is strictly
    before the next. Comments are left out (C13 places them). *)
Theorem C54_rows : forall bs fails file opt p body,
  ParseFile (mkSource bs fails) file opt = Returned (NFile p body) ->
  ForallOrdPairs earlier (flat_map row (flat_map commands body)).
Proof. exact file_rows. Qed.
Print Assumptions C54_rows.

(** The same inside any node, also of a tree returned by ParseExpr. *)
Theorem C54_nodes : forall bs fails file root n,
  accepted bs fails file root -> within root n -> ForallOrdPairs earlier (row n).
Proof. exact node_row. Qed.
Print Assumptions C54_nodes.

(** No node of the file is missing from the rows ... *)
Theorem C54_complete : forall bs fails file opt p body n,
  ParseFile (mkSource bs fails) file opt = Returned (NFile p body) ->
  within (NFile p body) n -> n <> NFile p body -> ~ is_comment n ->
  incl (row n) (flat_map row (flat_map commands body)).
Proof. exact file_covered. Qed.
Print Assumptions C54_complete.
Theorem C54_own : forall n, outside_row n = false -> In (npos n) (row n).
Proof. exact row_own. Qed.
Print Assumptions C54_own.

(** ... and the positions outside the rows are not later than what they stand in front of. *)
Theorem C54_braces : forall bs fails file root n p,
  accepted bs fails file root -> within root n ->
  (exists ps, n = NCurlyName p ps) \/ (exists x, n = NCurlyExpr p x) ->
  forall q, In q (row n) -> p = q \/ earlier p q.
Proof. exact node_outside. Qed.
Print Assumptions C54_braces.
Theorem C54_heredoc : forall bs fails file root p e o l ls rs q fl m b,
  accepted bs fails file root ->
  within root (NLet p e o l ls rs (Some (NHeredoc q fl m b))) -> q = p.
Proof. exact node_heredoc_pos. Qed.
Print Assumptions C54_heredoc.

Definition rows_of (s : text) : list (N * N) :=
  match ParseFile (mkSource s false) [] None with
  | Returned (NFile _ body) => map (fun q => (ap_line q, ap_column q)) (flat_map row (flat_map commands body))
  | _ => []
  end.
(** A function with default values, a ternary, calls, a method, a member, a slice, a
    dictionary, a lambda and a name with braces. *)
Definition C54_source : text :=
  T "function F(a, b = 1 + 2, ...)" ++ [10] ++
  T " let [x; y] = a.b ? G(1)->H(2) : z[3:]" ++ [10] ++
  T " return {'k': {-> p{q}r}, 'l': #{m: (-n)}}" ++ [10] ++
  T "endfunction".
Example C54_case : rows_of C54_source =
  [(1,1); (1,10); (1,12); (1,15); (1,19); (1,21); (1,23); (1,26);
   (2,2); (2,7); (2,10); (2,15); (2,16); (2,17); (2,19); (2,21); (2,22); (2,23); (2,27); (2,28); (2,29); (2,34); (2,35); (2,36);
   (3,2); (3,9); (3,10); (3,15); (3,19); (3,21); (3,23); (3,27); (3,32); (3,35); (3,37); (3,38); (3,39);
   (4,1)].
Proof. vm_compute. reflexivity. Qed.

(** The name with braces of that file, and the here-document of another. *)
Example C54_braces_case : exists root n, accepted C54_source false [] root /\ within root n /\
  match n with NCurlyName p (NCurlyLit _ _ :: NCurlyExpr q _ :: _) => (ap_column p =? 19) && (ap_column q =? 21) | _ => false end = true.
Proof. apply (found _ _ None 9); vm_compute; reflexivity. Qed.
Example C54_heredoc_case : exists root n,
  accepted (T "let x =<< trim END" ++ [10] ++ T " text" ++ [10] ++ T "END") false [] root /\ within root n /\
  match n with NLet p _ _ _ _ _ (Some (NHeredoc q [NBasicLit f _ _] _ [NBasicLit b _ _])) =>
    (ap_column q =? 1) && (ap_column f =? 11) && (ap_line b =? 2) | _ => false end = true.
Proof. apply (found _ _ None 9); vm_compute; reflexivity. Qed.
