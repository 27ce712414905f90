(** C70: an expression behind a command and the same expression by itself. *)
From Coq Require Import Lia ZifyBool ZifyNat ZifyN.
From Verif Require Import Base Utf8 CharClass Reader Vnode Token Ast CmdTable Export Api Places LinesProof Nodes Join JoinProof Sequel Head FindBack AloneProof ApiFile HeadProof CmdArgs.

(** C70: the second text has the lines of the first, with a command [k] that takes
    expressions and blanks [g] before its first line; without blanks the expression does
    not continue the name. The expression starts with no blank and no bar. If ParseFile
    accepts the second text, ParseExpr accepts the first, and its tree is the first
    expression of the first statement, moved to the right. If ParseExpr rejects the first
    text, ParseFile rejects the second with the same message at the same place. *)
Theorem C70_expression_alone : forall bs bs' fails fails' k g r l ts file opt,
  seen_lines bs ((r :: l) :: ts) -> seen_lines bs' ((k ++ g ++ r :: l) :: ts) ->
  expr_command (neovim_of opt) k -> Forall (fun x => x = 32 \/ x = 9) g ->
  ~ In r [32; 9; 124] -> (g = [] -> isalpha r = false /\ r <> 33) ->
  (forall p body, ParseFile (mkSource bs' fails') file opt = Returned (NFile p body) ->
     exists n s more, ParseExpr (mkSource bs fails) = Returned (Some n) /\ body = s :: more /\
       first_expr s = Some (map_node (behind_command file (N.of_nat (length (k ++ g)))) n)) /\
  (forall e, ParseExpr (mkSource bs fails) = Failed e ->
     ParseFile (mkSource bs' fails') file opt = Failed (error_behind file (N.of_nat (length (k ++ g))) e)).
Proof.
  intros bs bs' b b' k g r l ts file opt L L' Hk Hg Hr Hw. apply (file_alone bs bs' b b' k g r l ts file opt); auto.
  - unfold Written.gap. apply forallb_forall. rewrite Forall_forall in Hg. intros x Hx. destruct (Hg x Hx) as [-> | ->]; reflexivity.
  - unfold iswhite. change (C " ") with 32. cbn [In] in Hr. lia.
  - change (C "|") with 124. cbn [In] in Hr. lia.
Qed.
Print Assumptions C70_expression_alone.

Definition C70_expr : list N := T "[x, {'a': y" ++ [10] ++ T "  \}] + f(1)  | echo 2" ++ [10] ++ T "echo 3" ++ [10].
Definition C70_ts : list text := [T "  \}] + f(1)  | echo 2"; T "echo 3"].
Example C70_case : exists x n p body,
  seen_lines C70_expr (T "[x, {'a': y" :: C70_ts) /\ seen_lines (T "ec " ++ C70_expr) (T "ec [x, {'a': y" :: C70_ts) /\
  first_match false (T "ec") x /\ c_name x = T "echo" /\
  ParseExpr (mkSource C70_expr false) = Returned (Some n) /\ is_expr n = true /\
  ParseFile (mkSource (T "ec " ++ C70_expr) false) (T "f.vim") None = Returned (NFile p body) /\ length body = 3%nat.
Proof.
  do 4 eexists. split; [apply (seen_lines_iff _ _ false); vm_compute; reflexivity|]. split; [apply (seen_lines_iff _ _ false); vm_compute; reflexivity|].
  split; [apply lookup_first; vm_compute; reflexivity|]. split; [vm_compute; reflexivity|]. split; [vm_compute; reflexivity|]. split; [vm_compute; reflexivity|].
  split; vm_compute; reflexivity.
Qed.
Example C70_case_error : exists m, ParseExpr (mkSource (T "f(1, " ++ [10]) false) = Failed (ErrVimlParser [] 5 1 6 m) /\
  ParseFile (mkSource (T "throw f(1, " ++ [10]) false) (T "f.vim") None = Failed (ErrVimlParser (T "f.vim") 11 1 12 m).
Proof. eexists. split; vm_compute; reflexivity. Qed.
(** What the theorem cannot say: ParseExpr stops behind the first expression, ParseFile
    goes on. *)
Theorem C70_rest_refuted : exists bs n e, ParseExpr (mkSource bs false) = Returned (Some n) /\
  ParseFile (mkSource (T "throw " ++ bs) false) [] None = Failed e.
Proof. exists (T "1 2" ++ [10]). do 2 eexists. split; vm_compute; reflexivity. Qed.
Print Assumptions C70_rest_refuted.
(** The bar is left out for a reason: some of the commands do without an expression. *)
Theorem C70_bar_refuted : exists bs n e, ParseExpr (mkSource bs false) = Failed e /\
  ParseFile (mkSource (T "echo " ++ bs) false) [] None = Returned n.
Proof. exists (T "| echo 1" ++ [10]). do 2 eexists. split; vm_compute; reflexivity. Qed.
Print Assumptions C70_bar_refuted.
