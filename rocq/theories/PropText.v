(** Property theorems: which part of the text the result depends on. The vocabulary of the
    statements is in Join.v and Places.v. *)
From Verif Require Import Base Utf8 CharClass Reader Vnode Token Ast Api Places Nodes Join LinesProof JoinProof PlacesProof.

(** C27: parsing a script gives, apart from lines, columns and byte offsets, the same result
    as parsing the script with its continuation lines joined: the same AST, or an error with
    the same message at the same character. *)
Theorem C27_joined : forall bs fails ts bs' fails' j js file opt,
  seen_lines bs ts -> unbroken ts (j :: js) -> seen_lines bs' (j :: js) -> Forall (fun l => ~ is_continuation l) js ->
  same_answer bare (ParseFile (mkSource bs fails) file opt) (ParseFile (mkSource bs' fails') file opt) /\
  same_answer (option_map bare) (ParseExpr (mkSource bs fails)) (ParseExpr (mkSource bs' fails')).
Proof.
  intros bs fails ts bs' fails' j js file opt L U L' N. split.
  - exact (file_joined _ _ _ _ _ _ _ file opt L L' U (unbroken_self _ _ N)).
  - exact (expr_joined _ _ _ _ _ _ _ L L' U (unbroken_self _ _ N)).
Qed.
Print Assumptions C27_joined.
(** Two ways to break the same lines. *)
Theorem C27_rebroken : forall bs fails ts bs' fails' ts' js file opt,
  seen_lines bs ts -> unbroken ts js -> seen_lines bs' ts' -> unbroken ts' js ->
  same_answer bare (ParseFile (mkSource bs fails) file opt) (ParseFile (mkSource bs' fails') file opt) /\
  same_answer (option_map bare) (ParseExpr (mkSource bs fails)) (ParseExpr (mkSource bs' fails')).
Proof.
  intros bs fails ts bs' fails' ts' js file opt L U L' U'. split.
  - exact (file_joined _ _ _ _ _ _ _ file opt L L' U U').
  - exact (expr_joined _ _ _ _ _ _ _ L L' U U').
Qed.
Print Assumptions C27_rebroken.
(** Every text has joined lines. *)
Theorem C27_joined_exists : forall ts, exists js, unbroken ts js.
Proof. exact unbroken_exists. Qed.
Print Assumptions C27_joined_exists.
Definition C27_broken : list N := T "let x = [1," ++ [10] ++ T "  \ 2," ++ [10] ++ T " \]" ++ [10] ++ T "echo x" ++ [10].
Definition C27_unbroken : list N := T "let x = [1, 2,]" ++ [10] ++ T "echo x" ++ [10].
Lemma not_continuation l : re_continuation l = false -> ~ is_continuation l.
Proof. intros H K. apply continuation_iff in K. congruence. Qed.
Example C27_case : exists ts j js,
  seen_lines C27_broken ts /\ unbroken ts (j :: js) /\ seen_lines C27_unbroken (j :: js) /\
  Forall (fun l => ~ is_continuation l) js /\
  (exists p body, ParseFile (mkSource C27_broken false) [] None = Returned (NFile p body) /\ length body = 2%nat) /\
  ParseFile (mkSource C27_broken false) [] None <> ParseFile (mkSource C27_unbroken false) [] None.
Proof.
  exists [T "let x = [1,"; T "  \ 2,"; T " \]"; T "echo x"], (T "let x = [1, 2,]"), [T "echo x"].
  split; [apply (seen_lines_iff _ _ false); vm_compute; reflexivity|]. split.
  { apply (ub_line (T "let x = [1,") _ [T " 2,"; T "]"] [T "echo x"]).
    - apply ct_more with (ws := T "  "); [split; reflexivity|]. apply ct_more with (ws := T " "); [split; reflexivity|].
      apply ct_stop. intros l r E. injection E as <- <-. apply not_continuation. vm_compute; reflexivity.
    - apply unbroken_self. constructor. }
  split; [apply (seen_lines_iff _ _ false); vm_compute; reflexivity|].
  split; [repeat constructor; apply not_continuation; vm_compute; reflexivity|].
  split; [do 2 eexists; split; vm_compute; reflexivity|]. vm_compute. discriminate.
Qed.

(** C26: the text after a top-level :finish has no influence. [ts] are the lines up to
    :finish, and they are accepted; whatever lines follow (the first of them not a
    continuation of the :finish line), the result is the same AST. *)
Theorem C26_finish : forall bs fails ts bs' fails' more file opt p body q s e x,
  seen_lines bs ts -> seen_lines bs' (ts ++ more) -> starts_line more ->
  ParseFile (mkSource bs fails) file opt = Returned (NFile p body) ->
  In (NExcmd q s e) body -> ae_cmd e = Some x -> c_name x = T "finish" ->
  ParseFile (mkSource bs' fails') file opt = Returned (NFile p body).
Proof.
  intros bs fails ts bs' fails' more file opt p body q s e x.
  exact (file_finish bs bs' fails fails' ts more file opt p body q s e x).
Qed.
Print Assumptions C26_finish.
Definition C26_prefix : list N := T "let x = 1" ++ [10] ++ T "fini "" done" ++ [10].
Example C26_case : exists ts more p body q s e x,
  seen_lines C26_prefix ts /\ seen_lines (C26_prefix ++ T "endif ((" ++ [10; 0]) (ts ++ more) /\ starts_line more /\
  ParseFile (mkSource C26_prefix false) [] None = Returned (NFile p body) /\
  In (NExcmd q s e) body /\ ae_cmd e = Some x /\ c_name x = T "finish".
Proof.
  exists [T "let x = 1"; T "fini "" done"], [T "endif (("; [0]]. do 6 eexists.
  split; [apply (seen_lines_iff _ _ false); vm_compute; reflexivity|].
  split; [apply (seen_lines_iff _ _ false); vm_compute; reflexivity|].
  split; [intros l r E; injection E as <- <-; apply not_continuation; vm_compute; reflexivity|].
  split; [vm_compute; reflexivity|]. split; [right; left; reflexivity|]. split; reflexivity.
Qed.

(** C17 does not hold: the number 1.5 is all that is consumed of the first text, the second
    continues with the same two tokens (e and +), and is read differently. *)
Theorem C17_lookahead_refuted : exists p q,
  ParseExpr (mkSource (T "1.5" ++ T "e+" ++ T "a") false) = Returned (Some (NBasicLit p TNUMBER (T "1.5"))) /\
  ParseExpr (mkSource (T "1.5" ++ T "e+" ++ T "3") false) = Returned (Some (NBasicLit q TNUMBER (T "1.5e+3"))).
Proof. do 2 eexists; split; vm_compute; reflexivity. Qed.
Print Assumptions C17_lookahead_refuted.
(** The lines after the (joined) line in which the expression ends have no influence.
    Missing from C17: what the rest of that line may change. *)
Theorem C17_lines_partial : forall bs fails bs' fails' t ts more more' n,
  seen_lines bs ((t :: ts) ++ more) -> seen_lines bs' ((t :: ts) ++ more') -> starts_line more -> starts_line more' ->
  ParseExpr (mkSource bs fails) = Returned n -> ParseExpr (mkSource bs' fails') = Returned n.
Proof. intros bs fails bs' fails' t ts more more' n. exact (expr_lines bs bs' fails fails' t ts more more' n). Qed.
Print Assumptions C17_lines_partial.
Example C17_lines_case : exists t more more' n,
  seen_lines (T "a[1] + f(x) ) z" ++ [10] ++ T "junk") ([t] ++ more) /\ seen_lines (T "a[1] + f(x) ) z") ([t] ++ more') /\
  starts_line more /\ starts_line more' /\ ParseExpr (mkSource (T "a[1] + f(x) ) z" ++ [10] ++ T "junk") false) = Returned (Some n).
Proof.
  exists (T "a[1] + f(x) ) z"), [T "junk"], []. eexists.
  split; [apply (seen_lines_iff _ _ false); vm_compute; reflexivity|].
  split; [apply (seen_lines_iff _ _ false); vm_compute; reflexivity|].
  split; [intros l r E; injection E as <- <-; apply not_continuation; vm_compute; reflexivity|].
  split; [intros l r E; discriminate E|]. vm_compute; reflexivity.
Qed.
(** When ParseExpr succeeds the first (joined) line holds a character that is not blank. *)
Theorem C17_nonempty : forall bs fails ts js n,
  seen_lines bs ts -> unbroken ts js -> ParseExpr (mkSource bs fails) = Returned n ->
  exists j js' r, js = j :: js' /\ In r j /\ iswhite r = false.
Proof. intros bs fails ts js n. exact (expr_begins bs fails ts js n). Qed.
Print Assumptions C17_nonempty.
Example C17_blank : exists off l c m, ParseExpr (mkSource (T "  " ++ [10] ++ T "1") false) = Failed (ErrVimlParser [] off l c m).
Proof. do 4 eexists; vm_compute; reflexivity. Qed.
