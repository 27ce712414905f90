(** Source text at the positions of nodes. *)
From Coq Require Import Lia ZifyBool ZifyNat ZifyN.
From Verif Require Import Base Utf8 CharClass Reader Vnode Token Ast CmdTable Cursor Grammar TokSafe ExprSafe
  ExprParser CmdParser Export ExportSafe Script CmdBase CmdPieces CmdOpen ScriptExport Api ApiExpr ApiFile
  Places PlacesProof LinesProof ReaderFacts Nodes Derived Shape.

(** * The cells of a source *)

Lemma continues_fun l ws t ws' t' : continues l ws t -> ~ In 92 ws -> continues l ws' t' -> ~ In 92 ws' ->
  ws = ws' /\ t = t'.
Proof.
  intros [-> _] H [E _] H'. revert ws' H' E. induction ws as [|w ws IH]; intros [|w' ws'] H' E; cbn [app] in E.
  - inversion E; auto.
  - inversion E; subst. exfalso. apply H'. left; auto.
  - inversion E; subst. exfalso. apply H. left; auto.
  - inversion E; subst. destruct (IH (fun K => H (or_intror K)) ws' (fun K => H' (or_intror K)) H2). subst; auto.
Qed.
Lemma pieces_fun n l lines ps e r : pieces n l lines ps e r ->
  forall ps' e' r', pieces n l lines ps' e' r' -> ps = ps' /\ e = e' /\ r = r'.
Proof.
  induction 1; intros ps' e' r' K; inversion K; subst.
  - auto.
  - exfalso. apply (H _ _ eq_refl). exists ws, t. auto.
  - exfalso. apply (H2 _ _ eq_refl). exists ws, t. auto.
  - match goal with X : continues _ _ _, Y : ~ In _ _, Z : pieces _ _ _ _ _ _ |- _ =>
      lazymatch X with H => fail | _ => lazymatch Y with H0 => fail | _ => 
      destruct (continues_fun _ _ _ _ _ H H0 X Y); subst; destruct (IHpieces _ _ _ Z) as [-> [-> ->]] end end end. auto.
Qed.
Lemma logical_fun n lines ls : logical n lines ls -> forall ls', logical n lines ls' -> ls = ls'.
Proof.
  induction 1; intros ls' K; inversion K; subst; auto.
  destruct (pieces_fun _ _ _ _ _ _ H _ _ _ H4) as [<- [<- <-]]. f_equal. apply IHlogical; auto.
Qed.
Lemma source_view bs b cells : source_cells bs cells <-> cells = view (open_source (mkSource bs b)).
Proof.
  split.
  - intros [ts [ls [H1 [H2 ->]]]]. destruct (seen_logical _ b _ H1) as [ls' [H3 ->]].
    rewrite (logical_fun _ _ _ H2 _ H3). reflexivity.
  - intros ->. destruct (seen_exists bs) as [ts H1]. destruct (seen_logical _ b _ H1) as [ls [H2 H3]].
    exists ts, ls. auto.
Qed.
Lemma source_exists bs : exists cells, source_cells bs cells.
Proof. exists (view (open_source (mkSource bs false))). apply (source_view bs false). auto. Qed.

Lemma starts_view s : starts_at (view s) (p_lnum (getpos s)) (p_col (getpos s)).
Proof. destruct s; cbn; auto. Qed.
Lemma spells_view s d c : spells s d c -> exists mid, view d = mid ++ view c /\ map cell_of mid = map R s.
Proof.
  revert d; induction s as [|r s IH]; cbn [spells]; intros d H.
  - subst. exists []. auto.
  - destruct d as [|[|r'] p t]; try contradiction. destruct H as [-> H]. destruct (IH _ H) as [mid [E1 E2]].
    exists ((R r, p_lnum p, p_col p) :: mid). cbn [view app map]. rewrite E1, E2. auto.
Qed.
Lemma spells_text B d s c : sfx d B -> spells s d c ->
  text_at (view B) (p_lnum (getpos d)) (p_col (getpos d)) s (view c).
Proof.
  intros H1 H2. destruct (sfx_view _ _ H1) as [pre [E1 _]]. destruct (spells_view _ _ _ H2) as [mid [E2 E3]].
  exists pre, mid. rewrite E1, E2. split; auto. split; auto. rewrite <- E2. apply starts_view.
Qed.
Lemma at_end_line c : at_end c -> line_end (view c).
Proof. unfold at_end, line_end. destruct c as [|[|r] p t]; cbn; auto; discriminate. Qed.
Lemma getstr_view a z : sfx z a ->
  exists mid, view a = mid ++ view z /\ map (fun x => cell_char (cell_of x)) mid = getstr a z.
Proof.
  intros H. unfold getstr. induction H as [c|z x p t H IH].
  - exists []. rewrite Nat.sub_diag. auto.
  - destruct IH as [mid [E1 E2]]. exists ((x, p_lnum p, p_col p) :: mid). cbn [view app map].
    rewrite E1. split; auto. pose proof (sfx_clen _ _ H). cbn [clen].
    replace (S (clen t) - clen z)%nat with (S (clen t - clen z)) by lia. cbn [getstr_n]. rewrite E2.
    destruct x; reflexivity.
Qed.
Lemma getstr_run B a z : sfx a B -> sfx z a ->
  run_at (view B) (p_lnum (getpos a)) (p_col (getpos a)) (getstr a z) (view z).
Proof.
  intros H1 H2. destruct (sfx_view _ _ H1) as [pre [E1 _]]. destruct (getstr_view _ _ H2) as [mid [E2 E3]].
  exists pre, mid. rewrite E1, E2. split; auto. split; auto. rewrite <- E2. apply starts_view.
Qed.

(** * Nodes of results *)

Lemma accepted_parsed bs b file root : accepted bs b file root ->
  forall lp fn n, inside root lp fn n -> exists neovim, parsed neovim (open_source (mkSource bs b)) file lp fn n.
Proof.
  intros [[opt H]|[-> H]] lp fn n Hn.
  - exists (neovim_of opt). eapply parsed_inside; eauto.
    destruct (ParseFile_cases (mkSource bs b) file opt) as [[v [p [body [H1 [H2 H3]]]]]|[[msg [s [_ H3]]]|[k [_ H3]]]];
      rewrite H3 in H; inversion H; subst.
    destruct H1 as [body' [c1 [c' [-> [H1 [_ _]]]]]]. exists (VToplevel (getpos (open_source (mkSource bs b))) body').
    split; auto. eapply de_file; eauto. constructor.
  - exists false. eapply parsed_inside; eauto.
    destruct (ParseExpr_cases (mkSource bs b)) as [[v [c' [m [H1 [H2 [_ H3]]]]]]|[msg [s [_ H3]]]];
      rewrite H3 in H; inversion H; subst.
    exists v. split; auto. eapply de_expr; eauto. constructor.
Qed.
Lemma accepted_within bs b file root n : accepted bs b file root -> within root n ->
  exists neovim lp fn, parsed neovim (open_source (mkSource bs b)) file lp fn n.
Proof.
  intros H Hn. destruct (within_inside _ _ Hn) as [lp [fn Hi]]. destruct (accepted_parsed _ _ _ _ H _ _ _ Hi); eauto.
Qed.

(** * Positions *)

Definition vea (v : vnode) : option exarg :=
  match v with
  | VExcmd _ e _ | VFunction _ e _ _ _ _ _ _ | VEndfunction _ e | VDelfunction _ e _
  | VReturn _ e _ | VExcall _ e _ | VLet _ e _ _ _ _ _ | VConst _ e _ _ _ _ _ | VUnlet _ e _ | VLockvar _ e _ _
  | VUnlockvar _ e _ _ | VIf _ e _ _ _ _ _ | VElseif _ e _ _ | VElse _ e _ | VEndif _ e
  | VWhile _ e _ _ _ | VEndwhile _ e | VFor _ e _ _ _ _ _ _ | VEndfor _ e | VContinue _ e
  | VBreak _ e | VTry _ e _ _ _ _ | VCatch _ e _ _ | VFinally _ e _ | VEndtry _ e
  | VThrow _ e _ | VEval _ e _ | VEcho _ _ e _ | VEchohl _ e _ | VExecute _ e _ => Some e
  | _ => None
  end.

Ltac unbind H :=
  repeat match type of H with
  | bind ?m _ = Ok _ => let E := fresh "E" in destruct m eqn:E; cbn [bind] in H; [|discriminate|discriminate|discriminate]
  end.
Lemma new_ast_ea file v n : new_ast file v = Ok n ->
  npos n = new_pos file (vpos v) /\ nea n = option_map (new_exarg file) (vea v).
Proof.
  destruct v; cbn [new_ast]; intros H;
    try match type of H with (match ?x with _ => _ end) = _ => destruct x eqn:?; try discriminate end;
    unbind H; inversion H; subst; split; reflexivity.
Qed.

Lemma dexpr_low l c v c' : dexpr l c v c' -> (1 <= l)%nat.
Proof. induction 1; try lia. Qed.
Lemma level_ea v : (1 <= vlevel v)%nat -> vea v = None.
Proof. destruct v; cbn [vlevel vea]; auto; lia. Qed.

Section Pos.
Context (neovim : bool) (B : cursor).
Definition here (p : pos) : Prop := exists s, sfx s B /\ p = getpos s.
Definition ohere (o : option pos) : Prop := forall p, o = Some p -> here p.
(** The positions of an ExArg. *)
Definition ea_here (p : pos) (o : option exarg) : Prop :=
  forall e, o = Some e -> ohere (ea_linepos e) /\ ea_cmdpos e = Some p /\ ohere (ea_argpos e).

Lemma here_at s : sfx s B -> here (getpos s). Proof. exists s; auto. Qed.
Lemma head_here P a b d c e : head neovim P a b d c e -> sfx a B -> here (getpos b) /\ ea_here (getpos b) (Some e).
Proof.
  intros H Ha. destruct (head_B neovim B _ _ _ _ _ _ H Ha) as [Hb Hd]. split. apply here_at; auto.
  destruct H as [x [H _]]. intros e0 E0; inversion E0; subst e0. rewrite (h_line _ _ _ _ _ _ _ H), (h_cmd _ _ _ _ _ _ _ H), (h_arg _ _ _ _ _ _ _ H).
  split; [|split; auto]; intros p E; inversion E; apply here_at; auto.
Qed.
Lemma derived_here lp fn v : derived neovim B lp fn v -> here (vpos v) /\ ea_here (vpos v) (vea v).
Proof.
  intros H.
  assert (No : forall v, vea v = None -> ea_here (vpos v) (vea v)).
  { intros u Eu e E. congruence. }
  destruct H; cbn [vpos];
    try (split; [solve [apply here_at; auto]|solve [apply No; reflexivity]]).
  - split.
    + apply dexpr_pos in H. destruct H as [s [K ->]]. apply here_at. eapply sfx_trans; eauto.
    + apply No. apply level_ea. pose proof (dexpr_low _ _ _ _ H). apply dexpr_level in H. lia.
  - split.
    + apply dlval_pos in H. destruct H as [s [K ->]]. apply here_at. eapply sfx_trans; eauto.
    + apply No. apply level_ea. apply dlval_level in H. lia.
  - split; [|apply No; reflexivity].
    apply token_pos in H. destruct H as [s [K ->]]. apply here_at. eapply sfx_trans; eauto.
  - split; [|apply No; reflexivity]. apply here_at. subst. eapply sfx_tail; eauto.
  - destruct H; try (destruct H0 as [<-|[]]); cbn [vpos vea];
      try match goal with X : head _ _ a _ _ _ _ |- _ => exact (head_here _ _ _ _ _ _ X H1) end.
    + split. apply (here_at _ H1). intros e E; discriminate.
    + match goal with X : same_line a c |- _ => destruct X as [s0 X]; pose proof (spells_sfx _ _ _ X) as Hc end.
      split. apply here_at. eapply sfx_trans; eauto.
      intros e0 E0; inversion E0; subst e0.
      repeat match goal with X : _ e = _ |- _ => rewrite X end.
      split; [|split; auto]; intros p E; inversion E; apply here_at; auto.
    + apply in_app_or in H0. destruct H0 as [H0|[<-|[]]].
      * match goal with X : dtrail _ cms _ |- _ => destruct X; try contradiction end.
        destruct H0 as [<-|[]]. split; [|intros e0 E0; discriminate].
        cbn [vpos].
        match goal with X : blank _ (Cons _ ?p _) |- here ?p => apply blank_sfx in X;
          apply (here_at (Cons (R (C """")) p t)); eapply sfx_trans; [exact X|] end.
        repeat match goal with
        | X : dhwords _ _ _ _ |- _ => apply dhwords_sfx in X
        | X : spells _ _ _ |- _ => apply spells_sfx in X
        | X : blank _ _ |- _ => apply blank_sfx in X
        | X : dlhs _ _ _ _ _ _ |- _ => apply dlhs_sfx in X
        | X : head _ _ _ _ _ _ _ |- _ => apply head_sfx in X; destruct X as [X _]
        end. eauto 10 using sfx_trans.
      * exact (head_here _ _ _ _ _ _ H H1).
  - repeat destruct H1 as [H1|H1]; inversion H1; subst; exact (head_here _ _ _ _ _ _ H H0).
  - exact (head_here _ _ _ _ _ _ H H0).
  - exact (head_here _ _ _ _ _ _ H H0).
  - exact (head_here _ _ _ _ _ _ H H0).
  - exact (head_here _ _ _ _ _ _ H H0).
Qed.

(** * Text at positions *)

(** The text [t] stands at position [p]. *)
Definition spelled (p : pos) (t : text) : Prop :=
  exists d c, sfx d B /\ getpos d = p /\ spells t d c.
Definition litkey_at (p : pos) (t : text) : Prop :=
  exists r s d x q u c, t = T "'" ++ (r :: s) ++ T "'" /\ litkey_text (r :: s) /\ d = Cons x q u /\
    sfx d B /\ spells (r :: s) d c /\ getpos u = p.
Definition cmp_tok_text (o : binop) : list text :=
  match o with
  | BOr => [T "||"] | BAnd => [T "&&"] | BCmp o m => [cmp_symbol o ++ mode_symbol m]
  | BAdd => [T "+"] | BSub => [T "-"] | BConcat => [T "."; T ".."]
  | BMul => [T "*"] | BDiv => [T "/"] | BRem => [T "%"]
  end.
Definition vmarked (v : vnode) : Prop :=
  match v with
  | VTernary p _ _ _ => spelled p (T "?")
  | VBin o p _ _ => exists t, In t (cmp_tok_text o) /\ spelled p t
  | VUn o p _ => spelled p (match o with UNot => T "!" | UMinus => T "-" | UPlus => T "+" end)
  | VSubscript p _ _ | VSlice p _ _ _ | VList p _ => spelled p (T "[")
  | VMethod p _ _ | VCall p _ _ | VParen p _ => spelled p (T "(")
  | VDot p _ _ => spelled p (T ".")
  | VDict p _ | VLambda p _ _ => spelled p (T "{") \/ spelled p (T "#{")
  | VLit k p s => spelled p s \/ (k = LString /\ litkey_at p s)
  | VIdent p s | VCurlyPart p s => spelled p s
  | _ => True
  end.

Lemma tok_spelled k c p c' t : tok_at k c p c' -> sfx c B -> spelling k = Some t -> spelled p t.
Proof.
  intros [u [[d [Hb [Hp Hu]]] [Hk Hq]]] Hc Hs. exists d, c'. subst k p. split.
  eapply sfx_trans; [apply blank_sfx; eauto|auto]. split; auto.
  destruct (tk u); try discriminate Hs; destruct Hu as [H1 H2]; unfold lexeme in H2; rewrite Hs in H2; subst; auto.
Qed.
Lemma token_spelled c t c' : token_at c t c' -> sfx c B -> tk t <> KEof -> tk t <> KEol -> spelled (tp t) (tv t).
Proof.
  intros [d [Hb [Hp Hu]]] Hc H1 H2. exists d, c'. split.
  eapply sfx_trans; [apply blank_sfx; eauto|auto]. split; auto. destruct (tk t); try congruence; apply Hu.
Qed.
Lemma at_spelled d s c : spells s d c -> sfx d B -> spelled (getpos d) s.
Proof. intros. exists d, c; auto. Qed.
Lemma name_spelled d q s c : dname d [VCurlyPart q s] c -> sfx d B -> spelled (getpos d) s.
Proof.
  intros H Hd. inversion H; subst.
  - match goal with X : dparts _ _ _ |- _ => inversion X; subst end. eapply at_spelled; eauto.
  - eapply at_spelled; eauto.
Qed.
Lemma level_op_text l k o : level_op l k = Some o -> exists t, spelling k = Some t /\ In t (cmp_tok_text o).
Proof.
  destruct l as [|[|[|[|[|[|[|]]]]]]]; destruct k; cbn [level_op]; intros H; inversion H; subst;
    eexists; (split; [reflexivity|cbn; auto]).
Qed.
Lemma blank_B c d : blank c d -> sfx c B -> sfx d B.
Proof. intros. eapply sfx_trans; [apply blank_sfx; eauto|auto]. Qed.

Ltac know x := lazymatch goal with K : sfx x B |- _ => fail | _ => idtac end.
Ltac new1 c' L Hc := know c'; pose proof (sfx_trans _ _ _ L Hc).
Ltac fwd := repeat match goal with
  | Hc : sfx ?c B, H : tok_at _ ?c _ ?c' |- _ => new1 c' (tok_at_sfx _ _ _ _ H) Hc
  | Hc : sfx ?c B, H : dexpr _ ?c _ ?c' |- _ => new1 c' (proj1 (dexpr_shrinks _ _ _ _ H)) Hc
  | Hc : sfx ?c B, H : dlval ?c _ ?c' |- _ => new1 c' (proj1 (dlval_shrinks _ _ _ H)) Hc
  | Hc : sfx ?c B, H : blank ?c ?c' |- _ => new1 c' (blank_sfx _ _ H) Hc
  | Hc : sfx ?c B, H : spells _ ?c ?c' |- _ => new1 c' (spells_sfx _ _ _ H) Hc
  end.

Lemma dexpr_marked l c v c' : dexpr l c v c' -> sfx c B -> vmarked v.
Proof.
  intros H Hc; revert Hc; induction H; intros Hc; fwd; cbn [vmarked]; auto;
    try (eapply tok_spelled; eauto; reflexivity; fail).
  - destruct (level_op_text _ _ _ H1) as [t [K1 K2]]. exists t. split; auto. eapply tok_spelled; eauto.
  - eexists. split. left. reflexivity. eapply tok_spelled; eauto; reflexivity.
  - eapply tok_spelled; eauto. destruct k; inversion H0; subst; reflexivity.
  - left. eapply token_spelled; eauto; intros E; rewrite E in *; discriminate.
  - left. eapply at_spelled; eauto.
  - destruct lit; [right|left]; eapply tok_spelled; eauto; reflexivity.
  - destruct lit; [right|left]; eapply tok_spelled; eauto; reflexivity.
  - eapply name_spelled; eauto.
Qed.
Lemma dlval_marked c v c' : dlval c v c' -> sfx c B -> vmarked v.
Proof.
  intros H Hc; revert Hc; induction H; intros Hc; fwd; cbn [vmarked]; auto;
    try (eapply tok_spelled; eauto; reflexivity; fail).
  - left. eapply token_spelled; eauto; intros E; rewrite E in *; discriminate.
  - eapply name_spelled; eauto.
Qed.
Lemma derived_marked lp fn v : derived neovim B lp fn v -> vmarked v.
Proof.
  destruct 1; cbn [vmarked]; auto.
  - eapply dexpr_marked; eauto.
  - eapply dlval_marked; eauto.
  - eapply token_spelled; eauto; intros E; rewrite E in *; cbn [In] in *; intuition discriminate.
  - eapply at_spelled; eauto.
  - eapply at_spelled; eauto.
  - right. split; auto. do 7 eexists. eauto 10.
  - left. eapply at_spelled; eauto.
  - destruct H; try (destruct H0 as [<-|[]]); cbn [vmarked]; auto.
    apply in_app_or in H0. destruct H0 as [H0|[<-|[]]]; [|exact I].
    match goal with X : dtrail _ cms _ |- _ => destruct X; try contradiction end. destruct H0 as [<-|[]]. exact I.
  - repeat destruct H1 as [H1|H1]; inversion H1; subst; exact I.
Qed.
End Pos.
