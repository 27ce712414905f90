(** C70: the argument of :call and the same expression by itself. *)
From Coq Require Import Lia ZifyBool ZifyNat ZifyN.
From Verif Require Import Base Utf8 CharClass Reader Vnode Token CmdTable CmdParser Ast Head Script Grammar Export Api ApiFile Places
  LinesProof Nodes Join Written Rest WrittenScript HeadProof AloneProof CallProof PropWrite PropText PropScript.

(** C70 for :call: the second text has the lines of the first, with [pre] before the first
    line: a :call, possibly abbreviated, with modifiers and a range. The expression starts
    with no blank, bar or double quote. If ParseFile accepts the second text, ParseExpr
    accepts the first and delivers a function call, and the first statement calls it, moved
    to the right. If ParseExpr rejects the first text, ParseFile rejects the second with the
    same message at the same place. If ParseExpr delivers something else than a function
    call, ParseFile says so at the place of that expression. *)
Theorem C70_call_alone : forall bs bs' fails fails' a pre x ts file opt,
  seen_lines bs (x :: ts) -> seen_lines bs' ((pre ++ x) :: ts) ->
  command (neovim_of opt) (T "parse_cmd_call") x a pre ->
  (exists r l, x = r :: l /\ ~ In r [32; 9; 124; 34]) -> Forall (fun y => y < 128) pre ->
  (forall p body, ParseFile (mkSource bs' fails') file opt = Returned (NFile p body) ->
     exists n q e more, ParseExpr (mkSource bs fails) = Returned (Some n) /\ is_call n = true /\
       body = NExCall q e (Some (map_node (behind_command file (N.of_nat (length pre))) n)) :: more) /\
  (forall e, ParseExpr (mkSource bs fails) = Failed e ->
     ParseFile (mkSource bs' fails') file opt = Failed (error_behind file (N.of_nat (length pre)) e)) /\
  (forall n, ParseExpr (mkSource bs fails) = Returned (Some n) -> is_call n = false ->
     exists i, ParseFile (mkSource bs' fails') file opt = Failed (ErrVimlParser file i
       (ap_line (behind_command file (N.of_nat (length pre)) (npos n)))
       (ap_column (behind_command file (N.of_nat (length pre)) (npos n)))
       (T "Not an function call"))).
Proof.
  intros bs bs' b b' a pre x ts file opt L L' Ha [r [l [-> Hr]]] Hs. apply (file_call bs bs' b b' a pre (r :: l) ts file opt); auto; [discriminate|].
  cbn [head_not]. unfold iswhite. change (C " ") with 32. change (C "|") with 124. change (C """") with 34. cbn [In] in Hr. lia.
Qed.
Print Assumptions C70_call_alone.

Definition C70_call : list N := T "a.f(x," ++ [10] ++ T "  \ [1]) | echo 2" ++ [10].
Example C70_case_call : exists n p s more,
  seen_lines C70_call [T "a.f(x,"; T "  \ [1]) | echo 2"] /\ seen_lines (T "cal " ++ C70_call) [T "cal a.f(x,"; T "  \ [1]) | echo 2"] /\
  command false (T "parse_cmd_call") (T "a.f(x,") (head_ false (T "call")) (T "cal ") /\
  ParseExpr (mkSource C70_call false) = Returned (Some n) /\ is_call n = true /\
  ParseFile (mkSource (T "cal " ++ C70_call) false) (T "f.vim") None = Returned (NFile p (s :: more)) /\ length more = 1%nat.
Proof.
  do 4 eexists. split; [apply (seen_lines_iff _ _ false); vm_compute; reflexivity|]. split; [apply (seen_lines_iff _ _ false); vm_compute; reflexivity|].
  split; [name_ (T "cal") (T " ")|]. split; [vm_compute; reflexivity|]. split; [reflexivity|]. split; vm_compute; reflexivity.
Qed.
Example C70_case_no_call : exists n i, ParseExpr (mkSource (T "f(1).x" ++ [10]) false) = Returned (Some n) /\ is_call n = false /\
  ParseFile (mkSource (T "call f(1).x" ++ [10]) false) (T "f.vim") None = Failed (ErrVimlParser (T "f.vim") i 1 10 (T "Not an function call")).
Proof. do 2 eexists. split; [vm_compute; reflexivity|]. split; vm_compute; reflexivity. Qed.
