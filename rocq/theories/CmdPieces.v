(** The command parser, part 3: targets, parameters, lists, here-documents. *)
From Coq Require Import Lia ZifyBool ZifyNat ZifyN.
From Verif Require Import Base CharClass Reader Vnode Tokenizer ExprParser CmdTable CmdParser
  Cursor Grammar TokSafe ExprSafe Script Fault Safe CmdBase CmdArgs.

(** * Positions of derived nodes *)

Lemma dexpr_pos l c v c' : dexpr l c v c' -> exists s, sfx s c /\ vpos v = getpos s.
Proof.
  induction 1; cbn [vpos]; auto;
    try match goal with
    | H : dexpr _ ?c _ ?c1, K : tok_at _ ?c1 ?p _ |- exists s, sfx s ?c /\ ?p = getpos s =>
      apply tok_at_pos in K; destruct K as [d [K ->]]; exists d; split; auto;
      eapply sfx_trans; [exact K|apply dexpr_shrinks in H; apply H]
    | K : tok_at _ ?c ?p _ |- exists s, sfx s ?c /\ ?p = getpos s => apply tok_at_pos in K; exact K
    | K : token_at ?c _ _ |- exists s, sfx s ?c /\ _ => apply token_pos in K; exact K
    | K : blank ?c ?d |- exists s, sfx s ?c /\ getpos ?d = _ =>
      exists d; split; auto; apply blank_sfx; exact K
    end.
  (* method calls: the position of the parenthesis *)
  apply tok_at_pos in H2. destruct H2 as [d [K ->]]. exists d; split; auto.
  eapply sfx_trans; [exact K|]. apply dexpr_shrinks in H1. eapply sfx_trans; [apply H1|].
  apply tok_at_sfx in H0. eapply sfx_trans; [apply H0|]. apply dexpr_shrinks in H; apply H.
Qed.

Lemma dlval_pos c v c' : dlval c v c' -> exists s, sfx s c /\ vpos v = getpos s.
Proof.
  induction 1; cbn [vpos]; auto;
    try match goal with
    | H : dlval ?c _ ?c1, K : tok_at _ ?c1 ?p _ |- exists s, sfx s ?c /\ ?p = getpos s =>
      apply tok_at_pos in K; destruct K as [d [K ->]]; exists d; split; auto;
      eapply sfx_trans; [exact K|apply dlval_shrinks in H; apply H]
    | K : token_at ?c _ _ |- exists s, sfx s ?c /\ _ => apply token_pos in K; exact K
    | K : blank ?c ?d |- exists s, sfx s ?c /\ getpos ?d = _ =>
      exists d; split; auto; apply blank_sfx; exact K
    end.
Qed.

Lemma dname_nonempty d q s c' : dname d [VCurlyPart q s] c' -> s <> [].
Proof.
  inversion 1; subst.
  - match goal with H : dparts _ _ _ |- _ => inversion H; subst end.
    match goal with H : some_of _ _ |- _ => apply H end.
  - match goal with H : is_sid _ |- _ => intros ->; discriminate H end.
Qed.

(** * Leading blanks *)

Lemma blank_blank c d e : blank c d -> blank d e -> blank c e.
Proof.
  intros [s [H1 [H2 H3]]] [s2 [K1 [K2 K3]]]. exists (s ++ s2).
  split. eapply spells_app; eauto. split; auto. rewrite forallb_app, H2, K2. auto.
Qed.
Lemma token_blank c d t c' : blank c d -> token_at d t c' -> token_at c t c'.
Proof. intros H [x [K1 K2]]. exists x. split; auto. eapply blank_blank; eauto. Qed.
Lemma tok_blank k c d p c' : blank c d -> tok_at k d p c' -> tok_at k c p c'.
Proof. intros H [x [K1 K2]]. exists x. split; auto. eapply token_blank; eauto. Qed.
Lemma dexpr_blank l d v c' : dexpr l d v c' -> forall c, blank c d -> dexpr l c v c'.
Proof.
  induction 1; intros z Hz.
  - apply d_up; auto.
  - eapply d_ternary; eauto.
  - eapply d_binary; eauto.
  - eapply d_compare; eauto.
  - eapply d_unary; eauto using tok_blank.
  - eapply d_subscript; eauto.
  - eapply d_slice; eauto.
  - eapply d_method; eauto.
  - eapply d_call; eauto.
  - eapply d_dot; eauto.
  - eapply d_lit; eauto using token_blank.
  - eapply d_string; eauto using blank_blank.
  - eapply d_list; eauto using tok_blank.
  - eapply d_dict; eauto using tok_blank.
  - eapply d_lambda; eauto using tok_blank.
  - eapply d_paren; eauto using tok_blank.
  - eapply d_name; eauto using blank_blank.
  - eapply d_curly; eauto using blank_blank.
Qed.
Lemma dlval_blank d v c' : dlval d v c' -> forall c, blank c d -> dlval c v c'.
Proof.
  induction 1; intros z Hz.
  - eapply lv_lit; eauto using token_blank.
  - eapply lv_name; eauto using blank_blank.
  - eapply lv_curly; eauto using blank_blank.
  - eapply lv_subscript; eauto.
  - eapply lv_slice; eauto.
  - eapply lv_dot; eauto.
Qed.
Lemma dlhs_blank one d l ls r c' c : dlhs one d l ls r c' -> blank c d -> dlhs one c l ls r c'.
Proof.
  destruct 1; intros Hz.
  - apply dh_one; auto. eapply dlval_blank; eauto.
  - eapply dh_list; eauto using tok_blank.
Qed.

Lemma token_there c t c' : token_at c t c' -> exists d, blank c d /\ tp t = getpos d /\ token_at d t c'.
Proof. intros [d [H1 [H2 H3]]]. exists d. split; [auto|split; [auto|]]. exists d. split; [eapply blank_here; eauto|]. auto. Qed.

Section Pieces.
Context (B : cursor) (HB : wf B).

Lemma raise_pos_safe {A} (P : A -> Prop) msg c v s : sfx c B -> sfx s c -> vpos v = getpos s ->
  cmd_fault B s msg -> safe B P (raise msg (vpos v)).
Proof. intros H K -> F. apply safe_raise; auto. eapply sfx_trans; eauto. Qed.

(** * Targets *)

Lemma raise_target {A} (P : A -> Prop) msg c v c1 : sfx c B -> dlval c v c1 ->
  (forall s, target_at B v s -> cmd_fault B s msg) -> safe B P (raise msg (vpos v)).
Proof.
  intros Hc H F. destruct (dlval_pos _ _ _ H) as [s [Hs Hp]]. eapply raise_pos_safe; eauto. apply F.
  exists c, c1. auto.
Qed.

Lemma lval_kind c v c' : dlval c v c' ->
  match v with
  | VIdent _ _ | VCurlyName _ _ | VSubscript _ _ _ | VSlice _ _ _ _ | VDot _ _ _
  | VLit LOption _ _ | VLit LEnv _ _ | VLit LReg _ _ => True
  | _ => False
  end.
Proof.
  destruct 1; try exact I. cbn [In] in H0. destruct H0 as [H0|[H0|[H0|[]]]]; rewrite <- H0 in H1; inversion H1; exact I.
Qed.

Lemma lvalue_func_safe c : sfx c B -> target_due B (argument_due B) c ->
  safe B (fun '(v, c') => dlval c v c' /\ function_name v) (parse_lvalue_func c).
Proof.
  intros Hc Hdu. unfold parse_lvalue_func. safe_b. apply parse_lvalue_safe; auto.
  intros [v c1] H. cbn [is_lval_at] in H. pose proof (lval_kind _ _ _ H) as Hk.
  destruct v; try (exfalso; exact Hk); try (split; [auto|exact I]).
  - eapply raise_target; eauto. intros s Hs. apply (cf_function _ _ _ Hs). intros K; exact K.
  - destruct k; try (exfalso; exact Hk); split; auto; exact I.
Qed.

Lemma lvalue_safe c : sfx c B -> target_due B (argument_due B) c ->
  safe B (fun '(v, c') => dlval c v c' /\ target v) (parse_lvalue c).
Proof.
  intros Hc Hdu. unfold parse_lvalue. safe_b. apply parse_lvalue_safe; auto.
  intros [v c1] H. cbn [is_lval_at] in H. pose proof (lval_kind _ _ _ H) as Hk.
  destruct v; try (exfalso; exact Hk); try (split; [auto|exact I]).
  - destruct k; try (exfalso; exact Hk); split; auto; exact I.
  - destruct (isvarname value) eqn:E. split; auto.
    eapply (raise_target _ _ c (VIdent p value)); eauto. intros s Hs. eapply cf_variable; eauto.
Qed.

Lemma constlvalue_safe c : sfx c B -> target_due B (argument_due B) c ->
  safe B (fun '(v, c') => dlval c v c' /\ const_target v) (parse_constlvalue c).
Proof.
  intros Hc Hdu. unfold parse_constlvalue. safe_b. apply parse_lvalue_safe; auto.
  intros [v c1] H. cbn [is_lval_at] in H. pose proof (lval_kind _ _ _ H) as Hk.
  destruct v; try (exfalso; exact Hk); try (split; [auto|exact I]).
  - eapply (raise_target _ _ c (VSubscript p v1 v2)); eauto. intros s Hs. apply (cf_lock_item _ _ _ Hs). exact I.
  - eapply (raise_target _ _ c (VSlice p v r0 r1)); eauto. intros s Hs. apply (cf_lock_item _ _ _ Hs). exact I.
  - eapply (raise_target _ _ c (VDot p v1 v2)); eauto. intros s Hs. apply (cf_lock_item _ _ _ Hs). exact I.
  - destruct k; try (exfalso; exact Hk).
    + eapply (raise_target _ _ c (VLit LOption p value)); eauto. intros s Hs. eapply cf_lock_option; eauto.
    + eapply (raise_target _ _ c (VLit LEnv p value)); eauto. intros s Hs. eapply cf_lock_env; eauto.
    + eapply (raise_target _ _ c (VLit LReg p value)); eauto. intros s Hs. eapply cf_lock_reg; eauto.
  - destruct (isvarname value) eqn:E. split; auto.
    eapply (raise_target _ _ c (VIdent p value)); eauto. intros s Hs. eapply cf_variable; eauto.
Qed.

Ltac tg t c H := safe_b; [apply tget_safe; [exact HB|]|intros [t c] H].

Lemma lhs_loop_safe : forall n c, sfx c B -> target_due B (argument_due B) c -> (clen c < n)%nat ->
  safe B (fun '(vs, r, c') => dtargets c vs r c') (lhs_loop n c).
Proof.
  induction n as [|n IH]; intros c Hc Hdu Hn; [lia|]. cbn [lhs_loop].
  safe_b. apply lvalue_safe; auto. intros [v c1] [Hv Ht].
  destruct (dlval_shrinks _ _ _ Hv) as [S1 S2].
  assert (S1B : sfx c1 B) by (eapply sfx_trans; eauto).
  tg t c2 Htk; auto. pose proof (token_sfx _ _ _ Htk) as S3. pose proof (sfx_clen _ _ S3).
  assert (S3B : sfx c2 B) by (eapply sfx_trans; eauto).
  assert (Hbad : ~ In (tk t) [KSqClose; KComma; KSemicolon] ->
    safe B (fun '(vs, r, c') => dtargets c vs r c') (raise (T "E475 Invalid argument: " ++ tv t) (tp t))).
  { intros K. eapply raise_tok_safe; eauto. intros d Hd Hst. eapply (cf_list B d t c v c1); eauto. left; reflexivity. }
  destruct (tk t) eqn:Ek; try (apply Hbad; cbn [In]; intuition discriminate).
  - cbn [safe]. eapply dt_last; eauto. rewrite <- Ek. apply token_tok_at; eauto.
  - safe_b. apply (IH c2); auto; [right; exists c1, t; rewrite Ek; cbn [In]; auto 8|lia]. intros [[vs r] c3] H3. cbn [safe].
    eapply dt_cons; eauto. rewrite <- Ek. apply token_tok_at; eauto.
  - safe_b. apply (lvalue_safe c2); auto. { right. exists c1, t. rewrite Ek. cbn [In]. auto 8. } intros [w c3] [Hw Htw].
    destruct (dlval_shrinks _ _ _ Hw) as [S4 S5].
    assert (S4B : sfx c3 B) by (eapply sfx_trans; eauto).
    tg t2 c4 Ht2; auto. destruct (tok_eqb (tk t2) KSqClose) eqn:E2.
    + apply tok_eqb_eq in E2. cbn [safe]. eapply dt_rest; eauto.
      rewrite <- Ek; apply token_tok_at; eauto. rewrite <- E2; apply token_tok_at; eauto.
    + eapply raise_tok_safe; eauto. intros d Hd Hst. eapply (cf_list B d t2 c2 w c3); eauto. right; left; reflexivity.
      cbn [In]. intros [K|[]]. rewrite <- K in E2. discriminate.
Qed.

Lemma dtargets_sfx c vs r c' : dtargets c vs r c' -> sfx c' c.
Proof.
  induction 1; repeat match goal with
  | H : dlval _ _ _ |- _ => apply dlval_shrinks in H; destruct H
  | H : tok_at _ _ _ _ |- _ => apply tok_at_sfx in H
  end; eauto 10 using sfx_trans.
Qed.

Lemma dlhs_sfx one c l ls r c' : dlhs one c l ls r c' -> sfx c' c.
Proof.
  destruct 1. apply dlval_shrinks in H; apply H.
  apply dtargets_sfx in H0. apply tok_at_sfx in H. eapply sfx_trans; eauto.
Qed.

Lemma lhs_safe one prs c : sfx c B -> target_due B (argument_due B) c ->
  (forall d, sfx d B -> target_due B (argument_due B) d -> safe B (fun '(v, c') => dlval d v c' /\ one v) (prs d)) ->
  safe B (fun '(l, ls, r, c') => dlhs one c l ls r c') (parse_lhs prs c).
Proof.
  intros Hc Hdu Hone. unfold parse_lhs. tg t c1 Ht; auto.
  assert (S1 : sfx c1 B) by (eapply sfx_trans; [eapply token_sfx; eauto|auto]).
  destruct (tok_eqb (tk t) KSqOpen) eqn:E.
  - apply tok_eqb_eq in E. safe_b. apply lhs_loop_safe; auto. { right. exists c, t. rewrite E. cbn [In]. auto 8. } intros [[vs r] c2] H. cbn [safe].
    eapply dh_list; eauto. rewrite <- E. apply token_tok_at; auto.
  - safe_b. apply Hone; auto. intros [v c2] [H1 H2]. cbn [safe]. eapply dh_one; eauto.
Qed.

(** * Lists *)

Lemma lvalues_safe : forall n c, sfx c B -> (exists c0 v, sfx c0 B /\ (dexpr 1 c0 v c \/ dlval c0 v c)) -> (clen c < n)%nat ->
  safe B (fun '(vs, c') => dlvals c vs c') (lvalues_loop n c).
Proof.
  induction n as [|n IH]; intros c Hc [c0 [v0 [Hc0 Hv0]]] Hn; [lia|]. cbn [lvalues_loop].
  pose proof (blank_skip c) as Hb. pose proof (blank_sfx _ _ Hb) as Hs.
  destruct (ends_excmds (peek (skip_white c))).
  - cbn [safe]. constructor; auto.
  - safe_b. apply lvalue_safe. eapply sfx_trans; eauto. { left. eapply ar_next_target; eauto. } intros [v c1] [Hv Ht].
    destruct (dlval_shrinks _ _ _ Hv) as [S1 S2]. pose proof (sfx_clen _ _ Hs).
    safe_b. apply (IH c1). eapply sfx_trans; [exact S1|]. eapply sfx_trans; eauto.
    { exists (skip_white c), v. split; auto. eapply sfx_trans; eauto. } lia.
    intros [vs c2] H2. cbn [safe]. eapply dv_cons; eauto.
Qed.

Lemma lvaluelist_safe c : sfx c B -> operand_due B (argument_due B) c ->
  safe B (fun '(l, c') => exists v c1 vs, l = v :: vs /\ dexpr 1 c v c1 /\ dlvals c1 vs c')
    (parse_lvaluelist c).
Proof.
  intros Hc Hdu. unfold parse_lvaluelist. safe_b. apply parse_expr_safe; auto.
  intros [v c1] Hv. cbn [is_expr_at] in Hv. destruct (dexpr_shrinks _ _ _ _ Hv) as [S1 _].
  safe_b. apply lvalues_safe. eapply sfx_trans; eauto. { exists c, v. auto. } lia.
  intros [vs c2] H2. cbn [safe]. eauto 10.
Qed.

Lemma exprs_safe : forall n c, sfx c B -> (forall c', blank c c' -> argument_due B false c') -> (clen c < n)%nat ->
  safe B (fun '(vs, c') => dexprs c vs c') (exprs_loop n c).
Proof.
  induction n as [|n IH]; intros c Hc Hdu Hn; [lia|]. cbn [exprs_loop].
  pose proof (blank_skip c) as Hb. pose proof (blank_sfx _ _ Hb) as Hs.
  destruct (negb (ch_is (peek (skip_white c)) (C """")) && ends_excmds (peek (skip_white c))).
  - cbn [safe]. constructor; auto.
  - safe_b. apply parse_expr_safe; auto. eapply sfx_trans; eauto. { left. apply Hdu; auto. } intros [v c1] Hv.
    cbn [is_expr_at] in Hv. destruct (dexpr_shrinks _ _ _ _ Hv) as [S1 S2].
    pose proof (sfx_clen _ _ Hs).
    safe_b. apply (IH c1). eapply sfx_trans; [exact S1|]. eapply sfx_trans; eauto.
    { intros c' Hc'. eapply ar_next; [|exact Hv|exact Hc']. eapply sfx_trans; eauto. } lia.
    intros [vs c2] H2. cbn [safe]. eapply dx_cons; eauto.
Qed.

Lemma exprlist_safe c : sfx c B -> (forall c', blank c c' -> argument_due B false c') ->
  safe B (fun '(vs, c') => dexprs c vs c') (parse_exprlist c).
Proof. intros. apply exprs_safe; auto. Qed.

(** * Parameters and attributes of :function *)

Definition params_post (named : list text) (ndef : bool) (c : cursor)
  : list vnode * list vnode * cursor -> Prop :=
  fun '(rl, da, c') => dfparams ndef c rl da c' /\
    exists ps rest, rl = ps ++ rest /\ Forall is_param ps /\ NoDup (map name_of ps) /\
      (forall x, In x (map name_of ps) -> ~ In x named) /\
      Forall (fun v => name_of v <> T "firstline" /\ name_of v <> T "lastline") ps /\
      (rest = [] \/ exists v, rest = [v] /\ is_rest v) /\ (length da <= length ps)%nat.

Lemma params_safe c0 : sfx c0 B -> forall n named ndef c, params_to c0 ndef named c -> sfx c B -> param_due B c -> (clen c < n)%nat ->
  safe B (params_post named ndef c) (params_loop n named ndef c).
Proof.
  intros Hc0. induction n as [|n IH]; intros named ndef c Hto Hc Hpd Hn; [lia|]. cbn [params_loop].
  tg t c1 Ht; auto. pose proof (token_sfx _ _ _ Ht) as S1.
  assert (S1B : sfx c1 B) by (eapply sfx_trans; eauto).
  assert (Hbad : ~ In (tk t) [KIdent; KDotDotDot] -> safe B (params_post named ndef c) (unexpected_token t)).
  { intros K. eapply unexpected_safe; eauto. intros d Hd. eapply wa_param; eauto. }
  destruct (tk t) eqn:Ek; try (apply Hbad; cbn [In]; intuition discriminate). all: clear Hbad.
  2: { tg t1 c2 Ht1; auto. destruct (tok_eqb (tk t1) KPClose) eqn:E1.
       - apply tok_eqb_eq in E1. cbn [safe params_post]. split.
         + eapply fp_rest; eauto. rewrite <- E1. apply token_tok_at; eauto.
         + exists [], [VIdent (tp t) (tv t)]. split; [auto|]. split; [constructor|].
           split; [constructor|]. split; [intros x []|]. split; [constructor|].
           split; [|cbn; lia]. right. exists (VIdent (tp t) (tv t)). split; auto. cbn [is_rest].
           destruct Ht as [d [_ [_ Hx]]]. rewrite Ek in Hx. destruct Hx as [_ Hx]. exact Hx.
       - eapply (unexpected_safe B _ c1 t1 c2 [KPClose]); eauto.
         + intros d Hd. eapply wa_dots; [exact Hc|exact Ht|exact Ek|exact Hd|right; left; reflexivity].
         + cbn [In]. intros [K|[]]. rewrite <- K in E1. discriminate. }
  destruct (negb (isargname (tv t)) || text_eqb (tv t) (T "firstline") || text_eqb (tv t) (T "lastline")) eqn:Ea;
    [eapply raise_tok_safe; eauto; intros d Hd Hst|].
  { destruct (isargname (tv t)) eqn:Ei.
    - apply cf_param; auto. cbn [negb orb] in Ea. apply orb_true_iff in Ea. cbn [In].
      destruct Ea as [Ea|Ea]; apply text_eqb_eq in Ea; auto.
    - apply cf_expr. apply ef_argname; auto. }
  apply orb_false_iff in Ea. destruct Ea as [Ea E3]. apply orb_false_iff in Ea. destruct Ea as [E1 E2].
  apply negb_false_iff in E1.
  destruct (mem_text (tv t) named) eqn:Em; [eapply raise_tok_safe; eauto; intros d Hd Hst|].
  { apply cf_expr. apply (ef_twice B (argument_due B) d t c0 ndef named c); auto. apply mem_text_In; auto. }
  assert (Hnot : ~ In (tv t) named). { intros Hin. apply mem_text_In in Hin. congruence. }
  assert (Hfl : tv t <> T "firstline" /\ tv t <> T "lastline").
  { split; intros E; rewrite E in *; [discriminate E2|discriminate E3]. }
  cbv zeta. tg t1 c2 Ht1; auto.
  pose proof (token_clen _ _ _ Ht ltac:(rewrite Ek; discriminate)) as L1.
  eapply (safe_bind _ (fun '(defs, c3) => ddefault ndef c1 defs c3 /\ sfx c3 c1 /\ (length defs <= 1)%nat)).
  { destruct (tok_eqb (tk t1) KEq) eqn:Eq.
    - apply tok_eqb_eq in Eq. safe_b. apply parse_expr_safe; auto.
      eapply sfx_trans; [eapply token_sfx; eauto|auto]. { right. left. exists c1, t1. rewrite Eq. cbn [before_operand]. auto. } intros [v c'] Hv. cbn [is_expr_at] in Hv.
      cbn [safe]. split; [|split; [|cbn; auto]].
      + eapply dd_some; eauto. rewrite <- Eq. apply token_tok_at; eauto.
      + destruct (dexpr_shrinks _ _ _ _ Hv) as [Hv1 _]. eapply sfx_trans; [exact Hv1|].
        eapply token_sfx; eauto.
    - destruct ndef.
      { destruct (token_there _ _ _ Ht) as [d [Hb [Hp Hst]]]. rewrite Hp. apply safe_raise.
        eapply sfx_trans; [apply blank_sfx; eauto|auto].
        apply (cf_default B d t c1 t1 c2 c0 named c); auto. intros K. rewrite K in Eq. discriminate. }
      cbn [safe]. split; [constructor|split; [constructor|cbn; lia]]. }
  intros [defs c3] [Hd [S3 Hlen]]. pose proof (sfx_clen _ _ S3) as L3.
  assert (S3B : sfx c3 B) by (eapply sfx_trans; eauto).
  rewrite p_0. cbn [bind].
  assert (Hpe : param_ends B c3).
  { inversion Hd; subst. left. exists c, t. auto. right. eexists _, _. split; [|eauto].
    match goal with K : tok_at KEq _ _ _ |- _ => apply tok_at_sfx in K end. eapply sfx_trans; eauto. }
  apply (safe_bind _ (fun b : bool => b = true -> exists r p c', peek1 c3 = Some r /\ iswhite r = true /\ tok_at KComma c3 p c')).
  { destruct (ch_in iswhite (peek c3)) eqn:Ew. 2: { cbn [safe]. discriminate. }
    safe_b. apply tpeek_safe; auto. intros t2 [c' Hc']. cbn [safe]. intros K. apply tok_eqb_eq in K.
    destruct c3 as [|[|r] p tl]; try discriminate Ew. exists r, (tp t2), c'. split; [auto|split; [auto|]].
    rewrite <- K. apply token_tok_at; auto. }
  intros bad Hbad. destruct bad.
  { destruct (Hbad eq_refl) as [r [p [c' [K1 [K2 K3]]]]]. apply safe_raise; auto. apply cf_expr. eapply ef_comma; eauto. }
  clear Hbad.
  assert (Hone : exists ps rest, [VIdent (tp t) (tv t)] = ps ++ rest /\ Forall is_param ps /\ NoDup (map name_of ps) /\
      (forall x, In x (map name_of ps) -> ~ In x named) /\
      Forall (fun v => name_of v <> T "firstline" /\ name_of v <> T "lastline") ps /\
      (rest = [] \/ exists v, rest = [v] /\ is_rest v) /\ (length defs <= length ps)%nat).
  { exists [VIdent (tp t) (tv t)], []. split; [auto|]. split; [repeat constructor; exact E1|].
    split; [repeat constructor; intros []|]. split; [intros x [<-|[]]; exact Hnot|].
    split; [constructor; [exact Hfl|constructor]|]. split; [auto|exact Hlen]. }
  tg t3 c4 Ht3; auto. pose proof (token_sfx _ _ _ Ht3) as S4. pose proof (sfx_clen _ _ S4) as L4.
  assert (S4B : sfx c4 B) by (eapply sfx_trans; eauto).
  assert (Hbad : ~ In (tk t3) [KComma; KPClose] -> safe B (params_post named ndef c) (unexpected_token t3)).
  { intros K. eapply unexpected_safe; eauto. intros d Hb3. inversion Hd; subst.
    - eapply wa_name; [exact Hc|eauto|eauto|eauto].
    - eapply wa_after; [|eauto|eauto|left; reflexivity].
      match goal with K : tok_at KEq _ _ _ |- _ => apply tok_at_sfx in K end. eapply sfx_trans; eauto. }
  destruct (tk t3) eqn:Ek3; try (apply Hbad; cbn [In]; intuition discriminate). all: clear Hbad.
  - cbn [safe params_post]. split; auto. eapply fp_last; eauto. rewrite <- Ek3; apply token_tok_at; eauto.
  - tg t4 c5 Ht4; auto. destruct (tok_eqb (tk t4) KPClose) eqn:E4.
    + apply tok_eqb_eq in E4. cbn [safe params_post]. split; auto.
      rewrite <- (app_nil_r defs). eapply fp_cons; eauto. rewrite <- Ek3; apply token_tok_at; eauto.
      eapply fp_close. rewrite <- E4; apply token_tok_at; eauto.
    + safe_b. apply (IH (tv t :: named) (ndef || negb (is_nil defs)) c4); auto.
      { inversion Hd; subst; cbn [is_nil negb].
        - rewrite orb_false_r. eapply pt_name; eauto. rewrite <- Ek3; apply token_tok_at; eauto.
        - rewrite orb_true_r. eapply pt_default; eauto. rewrite <- Ek3; apply token_tok_at; eauto. }
      { right. eexists _, t3. split; [|split; [exact Ht3|exact Ek3]]. eauto using sfx_trans. }
      lia.
      intros [[vs ds] c6] [Hp [ps [rest [-> [P1 [P2 [P3 [P4 [P5 P6]]]]]]]]].
      cbn [safe params_post]. split.
      * eapply fp_cons; eauto. rewrite <- Ek3; apply token_tok_at; eauto.
        replace (nonempty defs) with (negb (is_nil defs)) by (destruct defs; reflexivity). exact Hp.
      * exists (VIdent (tp t) (tv t) :: ps), rest. cbn [map name_of app length].
        split; [auto|]. split; [constructor; auto|].
        split; [constructor; auto; intros Hin; apply (P3 _ Hin); left; auto|].
        split; [intros x [<-|Hin] Hx; [contradiction|apply (P3 _ Hin); right; auto]|].
        split; [constructor; auto|]. split; [exact P5|]. rewrite app_length. lia.
Qed.

Lemma attrs_safe : forall n a c, sfx c B -> (clen c < n)%nat ->
  safe B (fun '(a', c') => dattrs a c a' c') (attr_loop n a c).
Proof.
  induction n as [|n IH]; intros a c Hc Hn; [lia|]. cbn [attr_loop].
  pose proof (blank_skip c) as Hb. pose proof (blank_sfx _ _ Hb) as Hs. pose proof (sfx_clen _ _ Hs).
  assert (HsB : sfx (skip_white c) B) by (eapply sfx_trans; eauto).
  unfold read_alpha. destruct (read_while isalpha (skip_white c)) as [key c1] eqn:E.
  apply read_while_spells in E. destruct E as [E1 [E2 E3]].
  destruct (is_nil key) eqn:En.
  { destruct key; [|discriminate]. cbn in E1. subst c1. cbn [safe]. constructor; auto. }
  assert (Hk : some_of isalpha key). { split; auto. intros ->; discriminate En. }
  assert (Hl : (clen c1 < clen c)%nat).
  { apply spells_clen in E1. destruct key; [discriminate En|]. cbn [length] in E1. lia. }
  assert (S1 : sfx c1 B). { eapply sfx_trans; [eapply spells_sfx; eauto|auto]. }
  assert (Hgo : forall a1, set_attr key a = Some a1 ->
     safe B (fun '(a', c') => dattrs a c a' c') (attr_loop n a1 c1)).
  { intros a1 Hset. eapply safe_imp; [|apply (IH a1 c1); auto; lia]. intros [a' c'] Ha.
    eapply da_word; eauto. }
  unfold set_attr in Hgo.
  destruct (text_eqb key (T "range")) eqn:Nrange; [apply Hgo; auto|].
  destruct (text_eqb key (T "abort")) eqn:Nabort; [apply Hgo; auto|].
  destruct (text_eqb key (T "dict")) eqn:Ndict; [apply Hgo; auto|].
  destruct (text_eqb key (T "closure")) eqn:Nclosure; [apply Hgo; auto|].
  apply safe_raise; auto. eapply cf_attribute; eauto.
  - destruct c1 as [|[|r] p t]; auto. cbn. apply E3. reflexivity.
  - cbn [In]. intros [K|[K|[K|[K|[]]]]]; subst key; discriminate.
Qed.

(** * Here-documents *)

Lemma hwords_safe : forall n c, sfx c B -> (clen c < n)%nat ->
  safe B (fun '(ws, m, c') => sfx c' c /\ (m <> [] -> dhwords c ws m c') /\
    (m = [] -> no_marker c c')) (heredoc_words n c).
Proof.
  induction n as [|n IH]; intros c Hc Hn; [lia|]. cbn [heredoc_words].
  pose proof (blank_skip c) as Hb. pose proof (blank_sfx _ _ Hb) as Hs. pose proof (sfx_clen _ _ Hs).
  unfold read_word. destruct (read_while iswordc (skip_white c)) as [key c1] eqn:E.
  apply read_while_spells in E. destruct E as [E1 [E2 E3]].
  assert (S1 : sfx c1 c). { eapply sfx_trans; [eapply spells_sfx; eauto|auto]. }
  destruct key as [|r key]. { cbn [safe]. split; auto. split; [congruence|]. intros _. cbn in E1. subst c1. apply nm_none; auto. }
  assert (Hk : some_of iswordc (r :: key)) by (split; [discriminate|auto]).
  destruct (islower r) eqn:El; cbn [negb].
  - pose proof (spells_clen _ _ _ E1) as L. cbn [length] in L.
    safe_b. apply (IH c1). eapply sfx_trans; eauto. lia. intros [[ws m] c2] [S2 [H2 H3]].
    cbn [safe]. split. eapply sfx_trans; eauto. split; [|intros Hm; eapply nm_word; eauto]. intros Hm. eapply hw_word; eauto.
    intros r0 t0 E0; inversion E0; subst; auto.
  - cbn [safe]. split; auto. split; [|discriminate]. intros _. eapply hw_marker; eauto.
    intros r0 t0 E0; inversion E0; subst; auto.
Qed.

Lemma hlines_ends m : forall n c, sfx c B -> (clen c < n)%nat ->
  ends (fun '(ls, c') => dhlines m c ls c')
    (fun s x => x = T "E990: Missing end marker '" ++ m ++ T "'" /\ lines_without m c s /\ sfx s c) (heredoc_lines n m c).
Proof.
  induction n as [|n IH]; intros c Hc Hn; [lia|]. cbn [heredoc_lines].
  destruct (is_eof c) eqn:Ee. { exists c. split; [reflexivity|]. split; [reflexivity|]. split; constructor; auto. }
  destruct (getn_all c) as [l c1] eqn:El.
  assert (Hw : wf c) by (eapply wf_sfx; eauto).
  destruct (getall_eol _ _ _ Hw Ee El) as [p [t ->]].
  apply getn_all_spells in El. destruct El as [El Ea].
  destruct (text_eqb l m) eqn:Em.
  - apply text_eqb_eq in Em. subst. cbn [ends]. eapply hl_end; eauto.
  - cbn [get snd]. pose proof (spells_clen _ _ _ El) as L. cbn [clen] in L.
    assert (Hlm : l <> m). { intros ->. rewrite (proj2 (text_eqb_eq m m) eq_refl) in Em. discriminate. }
    assert (St : sfx t c) by (eapply sfx_tail; eapply spells_sfx; eauto).
    eapply ends_bind. apply (IH t). eapply sfx_trans; eauto. lia.
    + intros s x [-> [K1 K2]]. split; [reflexivity|]. split. eapply lw_line; eauto. eapply sfx_trans; eauto.
    + intros [ls c2] H2. cbn [ends]. eapply hl_line; eauto.
Qed.

Lemma dhlines_sfx m c ls c' : dhlines m c ls c' -> sfx c' c.
Proof.
  induction 1. eapply spells_sfx; eauto. eapply sfx_trans; [exact IHdhlines|].
  eapply sfx_tail. eapply spells_sfx; eauto.
Qed.

(** * The end of a command line *)

Definition add_body_all (us : list vnode) (f : frame) : frame :=
  mkFrame (f_kind f) (f_pos f) (f_ea f) (f_body f ++ us).

Lemma trail_safe st f fs : ctx st = f :: fs -> sfx (cur st) B ->
  safe B (fun st' => cache st' = cache st /\ exists cms, dtrail (cur st) cms (cur st') /\
     ctx st' = add_body_all cms f :: fs) (parse_trail st).
Proof.
  intros Hx Hc. unfold parse_trail.
  pose proof (blank_skip (cur st)) as Hb. pose proof (blank_sfx _ _ Hb) as Hs.
  assert (HsB : sfx (skip_white (cur st)) B) by (eapply sfx_trans; eauto).
  assert (Hf : f = add_body_all [] f) by (destruct f; unfold add_body_all; cbn; rewrite app_nil_r; auto).
  assert (Hnb : forall r, peek1 (skip_white (cur st)) = Some r -> iswhite r = false).
  { destruct (skip_while_spells iswhite (cur st)) as [w [_ [_ K]]]. exact K. }
  set (c := skip_white (cur st)) in *. clearbody c.
  destruct c as [p|[|r] p t]; cbn [peek ch_of_cell].
  - cbn [safe with_cur cur ctx cache]. split; auto. exists []. split.
    apply tr_eof; auto. rewrite <- Hf; auto.
  - cbn [safe with_cur cur ctx cache get snd]. split; auto. exists []. split.
    eapply tr_eol; eauto. rewrite <- Hf; auto.
  - destruct (r =? C "|") eqn:E1.
    { apply N.eqb_eq in E1. subst. cbn [safe with_cur cur ctx cache get snd]. split; auto. exists [].
      split. eapply tr_bar; eauto. rewrite <- Hf; auto. }
    destruct (r =? C """") eqn:E2.
    { apply N.eqb_eq in E2. subst. unfold parse_comment. cbn [cur with_cur get].
      cbn [ch_of_cell ch_is]. rewrite N.eqb_refl. cbn [negb].
      destruct (getn_all t) as [s c2] eqn:E3.
      assert (Hw : wf t) by exact (wf_tail _ _ _ (wf_sfx _ _ HsB HB)).
      assert (He : is_eof t = false) by exact (wf_next _ _ _ (wf_sfx _ _ HsB HB)).
      destruct (getall_eol _ _ _ Hw He E3) as [q [u ->]]. apply getn_all_spells in E3.
      unfold add_node. cbn [ctx with_cur with_ctx cur cache]. rewrite Hx.
      cbn [bind safe with_cur with_ctx cur ctx cache get snd]. split; auto.
      exists [VComment p s]. split. eapply tr_comment; eauto. apply E3. reflexivity. }
    apply (safe_raise B _ _ (Cons (R r) p t)); auto. apply cf_trail; [reflexivity|].
    specialize (Hnb r eq_refl). unfold iswhite in Hnb. apply N.eqb_neq in E1, E2. cbn [In]. intros K.
    change (C "|") with 124 in E1. change (C """") with 34 in E2. cbn in K. change (C " ") with 32 in Hnb. lia.
Qed.

Lemma dtrail_sfx c cms d : dtrail c cms d -> sfx d c.
Proof.
  destruct 1.
  - apply blank_sfx; auto.
  - apply blank_sfx in H. eapply sfx_tail; eauto.
  - apply blank_sfx in H. eapply sfx_tail; eauto.
  - apply blank_sfx in H. eapply sfx_trans; [|eapply sfx_tail; eauto]. eapply sfx_tail.
    eapply spells_sfx; eauto.
Qed.

(** The lines of a here-document start after the line of its marker. *)
Lemma dtrail_gap c d : dtrail c [] d -> gap c d.
Proof.
  inversion 1; subst.
  - apply gap_blank; auto.
  - eapply gap_trans. apply gap_blank; eauto. repeat constructor.
  - eapply gap_trans. apply gap_blank; eauto. constructor; auto. constructor.
Qed.

End Pieces.
