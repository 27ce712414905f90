(** ParseExpr as a whole. *)
From Verif Require Import Base Utf8 CharClass Reader Vnode Token Ast Cursor Grammar Fault TokSafe ExprSafe
  ExprParser CmdParser Export ExportSafe Api.

Lemma open_source_wf src : wf (open_source src).
Proof. apply new_reader_wf. Qed.

(** The result of ParseExpr: the tree of a derivation of the text, or a located error. *)
Lemma ParseExpr_cases src :
  (exists v c' n, dexpr 1 (open_source src) v c' /\ new_ast [] v = Ok n /\ is_expr n = true /\
                  ParseExpr src = Returned (Some n)) \/
  (exists msg s, sfx s (open_source src) /\
     ParseExpr src = Failed (ErrVimlParser [] (p_i (getpos s)) (p_lnum (getpos s)) (p_col (getpos s)) msg)).
Proof.
  pose proof (parse_expr_esafe (D := expr_start (open_source src)) _ _ (open_source_wf src) (sfx_refl _) (or_introl (conj eq_refl eq_refl))) as H.
  unfold ParseExpr, parse_expr_to_ast.
  destruct (parse_expr (open_source src)) as [[v c']|e| |]; cbn [esafe] in H; try contradiction.
  - left. pose proof (dexpr_exports [] _ _ _ _ H) as [n [Hn Hq]].
    exists v, c', n. repeat split; auto. cbn [bind]. rewrite Hn. cbn [bind recovered].
    unfold to_expr. rewrite Hq. auto.
  - right. destruct H as [s [Hs [He Hx]]]. exists (e_msg e), s. split; auto. cbn [bind recovered].
    rewrite He at 1 2 3. reflexivity.
Qed.

Lemma ParseExpr_total src :
  (exists n, ParseExpr src = Returned (Some n) /\ is_expr n = true) \/
  (exists off line col msg, ParseExpr src = Failed (ErrVimlParser [] off line col msg)).
Proof.
  destruct (ParseExpr_cases src) as [[v [c' [n [_ [_ [Hq ->]]]]]]|[msg [s [_ ->]]]].
  - left; eauto.
  - right; eauto 10.
Qed.

Lemma ParseExpr_fault src f off line col msg : ParseExpr src = Failed (ErrVimlParser f off line col msg) ->
  exists s, sfx s (open_source src) /\ off = p_i (getpos s) /\ line = p_lnum (getpos s) /\ col = p_col (getpos s) /\
    expr_fault (open_source src) (expr_start (open_source src)) s msg.
Proof.
  pose proof (parse_expr_esafe (D := expr_start (open_source src)) _ _ (open_source_wf src) (sfx_refl _) (or_introl (conj eq_refl eq_refl))) as H.
  unfold ParseExpr, parse_expr_to_ast.
  destruct (parse_expr (open_source src)) as [[v c']|e| |]; cbn [esafe] in H; try contradiction.
  - pose proof (dexpr_exports [] _ _ _ _ H) as [n [Hn Hq]]. cbn [bind]. rewrite Hn. cbn [bind recovered].
    unfold to_expr. rewrite Hq. discriminate.
  - destruct H as [s [Hs [He Hx]]]. cbn [bind recovered]. intros K. exists s. split; [auto|].
    rewrite He in K. inversion K; subst. auto.
Qed.
