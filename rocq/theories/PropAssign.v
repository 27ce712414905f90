(** C72: the value of an assignment and the same expression by itself. *)
From Coq Require Import Lia ZifyBool ZifyNat ZifyN.
From Verif Require Import Base Utf8 CharClass Reader Vnode Token CmdTable Ast Head Script Grammar Export Api ApiFile Places
  LinesProof Nodes Join Written Rest WrittenScript HeadProof AloneProof AssignProof PropWrite PropText PropScript.

(** C72: the second text has the lines of the first, with [pre] before the first line: a
    :let or :const with the left side [l], [ls], [r] up to the operator [op]. If ParseFile
    accepts the second text, ParseExpr accepts the first, and the first statement is the
    assignment, with this left side and operator, of the tree ParseExpr delivers, moved to
    the right. If ParseExpr rejects the first text, ParseFile rejects the second with the
    same message at the same place. *)
Theorem C72_assigned_value : forall bs bs' fails fails' op l ls r pre x ts file opt,
  seen_lines bs (x :: ts) -> seen_lines bs' ((pre ++ x) :: ts) ->
  assignment (neovim_of opt) op l ls r pre -> Forall (fun y => y < 128) pre ->
  (op = T "=" -> exists y s, x = y :: s /\ y <> 60) ->
  (forall p body, ParseFile (mkSource bs' fails') file opt = Returned (NFile p body) ->
     exists n q a l' ls' r' more, ParseExpr (mkSource bs fails) = Returned (Some n) /\
       body = NLet q a op l' ls' r' (Some (map_node (behind_command file (N.of_nat (length pre))) n)) :: more /\
       option_map unplaced l' = option_map unplaced l /\ map unplaced ls' = map unplaced ls /\
       option_map unplaced r' = option_map unplaced r) /\
  (forall e, ParseExpr (mkSource bs fails) = Failed e ->
     ParseFile (mkSource bs' fails') file opt = Failed (error_behind file (N.of_nat (length pre)) e)).
Proof. intros bs bs' b b' op l ls r pre x ts file opt. exact (file_assigned bs bs' b b' op l ls r pre x ts file opt). Qed.
Print Assumptions C72_assigned_value.

(** "let [a, b] += f(x," on one line and its end on the next. *)
Definition C72_expr : list N := T " f(x," ++ [10] ++ T "  \ [1]) | echo 2" ++ [10].
Example C72_case : exists l ls r n p s more,
  seen_lines C72_expr [T " f(x,"; T "  \ [1]) | echo 2"] /\
  seen_lines (T "let [a, b] +=" ++ C72_expr) [T "let [a, b] += f(x,"; T "  \ [1]) | echo 2"] /\
  assignment false (T "+=") l ls r (T "let [a, b] +=") /\ Forall (fun y => y < 128) (T "let [a, b] +=") /\
  ParseExpr (mkSource C72_expr false) = Returned (Some n) /\ is_expr n = true /\
  ParseFile (mkSource (T "let [a, b] +=" ++ C72_expr) false) (T "f.vim") None = Returned (NFile p (s :: more)) /\ length more = 1%nat.
Proof.
  exists None, [id_ (T "a"); id_ (T "b")], None. do 4 eexists.
  split; [apply (seen_lines_iff _ _ false); vm_compute; reflexivity|]. split; [apply (seen_lines_iff _ _ false); vm_compute; reflexivity|].
  split.
  { apply (as_let false (T "+=") None [id_ (T "a"); id_ (T "b")] None (head_ false (T "let")) (T "let ") (T "[a, b]") (T " ")).
    - name_ (T "let") (T " ").
    - cbn; tauto.
    - apply (wl_list _ _ _ _ _ (T "a, b]")). apply (wt_cons _ (T "a") [] [] _ _ (T " b]")); [is_target_|reflexivity|reflexivity|reflexivity|].
      apply (wt_last _ (T "b") (T " ") []); [is_target_|reflexivity|reflexivity|reflexivity].
    - reflexivity. }
  split; [repeat constructor|]. split; [vm_compute; reflexivity|]. split; [vm_compute; reflexivity|]. split; vm_compute; reflexivity.
Qed.
Example C72_case_error : exists m, ParseExpr (mkSource (T " [1, " ++ [10]) false) = Failed (ErrVimlParser [] 5 1 6 m) /\
  ParseFile (mkSource (T "const x = [1, " ++ [10]) false) (T "f.vim") None = Failed (ErrVimlParser (T "f.vim") 14 1 15 m).
Proof. eexists. split; vm_compute; reflexivity. Qed.

(** The sign < directly behind the equals sign is left out for a reason: "=<<" starts lines
    that are kept as they are. *)
Theorem C72_heredoc_refuted : exists bs n e, ParseExpr (mkSource bs false) = Failed e /\
  ParseFile (mkSource (T "let x =" ++ bs) false) [] None = Returned n.
Proof. exists (T "<< END" ++ [10] ++ T "END" ++ [10]). do 2 eexists. split; vm_compute; reflexivity. Qed.
Print Assumptions C72_heredoc_refuted.
