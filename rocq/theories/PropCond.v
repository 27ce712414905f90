(** C74: the condition of a block and the same expression by itself; C73: blocks only grow. *)
From Coq Require Import Lia ZifyBool ZifyNat ZifyN.
From Verif Require Import Base Utf8 CharClass Reader Vnode Token CmdTable CmdParser Ast Head Script Grammar Export Api ApiFile Places
  LinesProof Nodes Join Written Rest WrittenScript HeadProof AloneProof HeapParser GrowProof CondProof PropWrite PropText PropScript.

(** The states of the parser between two commands of the input [c]. *)
Inductive between (nv : bool) (c : cursor) : hstate -> Prop :=
| between_start : between nv c (mkHs c [0%nat] [new_node HTop (getpos c) ea0] [])
| between_step st st' : between nv c st -> is_eof (h_cur st) = false -> h_parse_one_cmd nv st = Ok st' -> between nv c st'.

Lemma between_loop nv c st : between nv c st -> forall n r,
  h_cmds_loop nv n (mkHs c [0%nat] [new_node HTop (getpos c) ea0] []) = Ok r -> exists m, h_cmds_loop nv m st = Ok r.
Proof.
  induction 1 as [|st st' _ IH E1 E2]; intros n r E; [eauto|]. destruct (IH n r E) as [[|m] G]; [discriminate G|].
  cbn [h_cmds_loop] in G. rewrite E1, E2 in G. eauto.
Qed.

(** C73: what has been read stays. Every node there is after some of the commands is in the
    finished tree at the same address, with the same kind, arguments, position and command,
    and its body, its :elseif parts and its :catch parts start with what they had then. *)
Theorem C73_only_grows : forall src nv st s, between nv (open_source src) st -> h_parse nv (open_source src) = Ok s ->
  grow (h_store st) s.
Proof.
  intros src nv st s B E. unfold h_parse in E.
  destruct (h_cmds_loop _ _ _) as [r| | |] eqn:Er; try discriminate E. cbn [bind] in E.
  destruct (between_loop _ _ _ B _ _ Er) as [m Em]. pose proof (g_loop nv m (h_store st) st (grow_refl _)) as G. rewrite Em in G. cbn [grows] in G.
  destruct (h_top r) as [f| | |]; try discriminate E. cbn [bind] in E. destruct (hk_function _); [discriminate E|].
  destruct (h_check_missing _ _ _); try discriminate E. cbn [bind] in E. unfold h_pop in E. destruct (h_ctx r); [discriminate E|]. injection E as <-. exact G.
Qed.
Print Assumptions C73_only_grows.

(** Within the body of "if x": three nodes are there when the block is open, two more are
    made later. *)
Definition C73_text : list N :=
  T "while 1" ++ [10] ++ T "if x" ++ [10] ++ T "echo 1" ++ [10] ++ T "else" ++ [10] ++ T "endif" ++ [10] ++ T "endwhile" ++ [10] ++ T "try" ++ [10] ++ T "endtry" ++ [10].
Example C73_case_grows : exists st s, between false (open_source (mkSource C73_text false)) st /\ length (h_store st) = 3%nat /\
  h_parse false (open_source (mkSource C73_text false)) = Ok s /\ length s = 5%nat.
Proof.
  do 2 eexists. split.
  { eapply between_step; [eapply between_step; [eapply between_step; [apply between_start|reflexivity|vm_compute; reflexivity]|reflexivity|vm_compute; reflexivity]|reflexivity|vm_compute; reflexivity]. }
  split; [reflexivity|]. split; vm_compute; reflexivity.
Qed.

(** C74: the second text has the lines of the first, with [pre] before the first line: an
    :if, :while or :for ... in. If ParseFile accepts the second text, ParseExpr accepts the
    first, and the first statement is that block, with the tree ParseExpr delivers as its
    condition (for :for the list), moved to the right, whatever follows in the block. If
    ParseExpr rejects the first text, ParseFile rejects the second with the same message at
    the same place. *)
Theorem C74_condition_alone : forall bs bs' fails fails' b pre x ts file opt,
  seen_lines bs (x :: ts) -> seen_lines bs' ((pre ++ x) :: ts) ->
  block_head (neovim_of opt) x b pre -> x <> [] -> Forall (fun y => y < 128) pre ->
  (forall p body, ParseFile (mkSource bs' fails') file opt = Returned (NFile p body) ->
     exists n s more, ParseExpr (mkSource bs fails) = Returned (Some n) /\ body = s :: more /\
       is_block b (map_node (behind_command file (N.of_nat (length pre))) n) s) /\
  (forall e, ParseExpr (mkSource bs fails) = Failed e ->
     ParseFile (mkSource bs' fails') file opt = Failed (error_behind file (N.of_nat (length pre)) e)).
Proof. intros bs bs' b b' k pre x ts file opt. exact (file_cond bs bs' b b' k pre x ts file opt). Qed.
Print Assumptions C74_condition_alone.

(** "for [a, b] in f(x," on one line and its end on the next, with an :if in the block. *)
Definition C74_expr : list N := T " f(x," ++ [10] ++ T "  \ [1]) | if a" ++ [10] ++ T "echo b | endif" ++ [10] ++ T "endfor" ++ [10] ++ T "echo 2" ++ [10].
Definition C74_ts : list text := [T "  \ [1]) | if a"; T "echo b | endif"; T "endfor"; T "echo 2"].
Example C74_case : exists l ls r n p s more,
  seen_lines C74_expr (T " f(x," :: C74_ts) /\
  seen_lines (T "for [a, b] in" ++ C74_expr) (T "for [a, b] in f(x," :: C74_ts) /\
  block_head false (T " f(x,") (BFor l ls r) (T "for [a, b] in") /\ Forall (fun y => y < 128) (T "for [a, b] in") /\
  ParseExpr (mkSource C74_expr false) = Returned (Some n) /\ is_expr n = true /\
  ParseFile (mkSource (T "for [a, b] in" ++ C74_expr) false) (T "f.vim") None = Returned (NFile p (s :: more)) /\ length more = 1%nat.
Proof.
  exists None, [id_ (T "a"); id_ (T "b")], None. do 4 eexists.
  split; [apply (seen_lines_iff _ _ false); vm_compute; reflexivity|]. split; [apply (seen_lines_iff _ _ false); vm_compute; reflexivity|].
  split.
  { apply (bh_for false _ None [id_ (T "a"); id_ (T "b")] None (head_ false (T "for")) (T "for ") (T "[a, b]") (T " ")).
    - name_ (T "for") (T " ").
    - apply (wl_list _ _ _ _ _ (T "a, b]")). apply (wt_cons _ (T "a") [] [] _ _ (T " b]")); [is_target_|reflexivity|reflexivity|reflexivity|].
      apply (wt_last _ (T "b") (T " ") []); [is_target_|reflexivity|reflexivity|reflexivity].
    - reflexivity.
    - reflexivity. }
  split; [repeat constructor|]. split; [vm_compute; reflexivity|]. split; [vm_compute; reflexivity|]. split; vm_compute; reflexivity.
Qed.
Example C74_case_if : block_head false (T "!x") BIf (T "if ") /\ block_head false (T "-1 < x") BWhile (T "whi").
Proof.
  split.
  - apply (bh_if false _ (head_ false (T "if"))); [|reflexivity]. name_ (T "if") (T " ").
  - apply (bh_while false _ (head_ false (T "while"))); [|reflexivity]. name_ (T "whi") (@nil N).
Qed.
Example C74_case_error : exists m, ParseExpr (mkSource (T "f(1, " ++ [10]) false) = Failed (ErrVimlParser [] 5 1 6 m) /\
  ParseFile (mkSource (T "while f(1, " ++ [10]) false) (T "f.vim") None = Failed (ErrVimlParser (T "f.vim") 11 1 12 m).
Proof. eexists. split; vm_compute; reflexivity. Qed.
