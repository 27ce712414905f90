(** The blocks of accepted inputs: no closing command among their statements, and every
    command node other than an Excmd has its command. *)
From Coq Require Import Lia ZifyBool ZifyNat ZifyN.
From Verif Require Import Base Utf8 CharClass Reader Vnode Token Ast CmdTable Cursor Grammar TokSafe ExprSafe
  ExprParser CmdParser Export ExportSafe Script CmdBase CmdArgs CmdPieces CmdOpen ScriptExport Api ApiExpr ApiFile
  Places PlacesProof LinesProof ReaderFacts Nodes Derived Shape NodeText NodeFacts.

Definition v_part (v : vnode) : bool :=
  match v with
  | VEndfunction _ _ | VElseif _ _ _ _ | VElse _ _ _ | VEndif _ _ | VEndwhile _ _ | VEndfor _ _
  | VCatch _ _ _ _ | VFinally _ _ _ | VEndtry _ _ => true
  | _ => false
  end.
Definition v_block (v : vnode) : list vnode :=
  match v with
  | VToplevel _ b | VFunction _ _ b _ _ _ _ _ | VIf _ _ b _ _ _ _ | VElseif _ _ b _ | VElse _ _ b
  | VWhile _ _ b _ _ | VFor _ _ b _ _ _ _ _ | VTry _ _ b _ _ _ | VCatch _ _ b _ | VFinally _ _ b => b
  | _ => []
  end.
Notation whole := (Forall (fun v => v_part v = false)).

Lemma cmd_whole neovim w a c vs : cmd_nodes neovim w a c vs -> whole vs.
Proof.
  destruct 1; repeat constructor. apply Forall_app. split; [|repeat constructor].
  match goal with X : dtrail _ _ _ |- _ => destruct X; repeat constructor end.
Qed.
Lemma block_whole neovim w a c vs : block neovim w a c vs -> whole vs.
Proof. induction 1; [constructor|]. apply Forall_app. split; auto. eapply cmd_whole; eauto. Qed.
Lemma if_whole neovim w a c b es el : if_chain neovim w a c b es el -> whole b.
Proof. induction 1; eauto using block_whole. Qed.
Lemma try_whole neovim w a c b es el : try_chain neovim w a c b es el -> whole b.
Proof. induction 1; eauto using block_whole. Qed.
Lemma derived_whole neovim B lp fn v : derived neovim B lp fn v -> whole (v_block v).
Proof.
  destruct 1; cbn [v_block]; try constructor; try (eapply block_whole; eassumption).
  - pose proof (dexpr_low _ _ _ _ H). apply dexpr_level in H. destruct v; try constructor; cbn in H; lia.
  - apply dlval_level in H. destruct v; try constructor; cbn in H; lia.
  - destruct H; try (destruct H0 as [<-|[]]; try constructor; eauto using block_whole, if_whole, try_whole; fail).
    apply in_app_or in H0. destruct H0 as [H0|[<-|[]]]; [|constructor].
    match goal with X : dtrail _ _ _ |- _ => destruct X; try contradiction end. destruct H0 as [<-|[]]. constructor.
  - repeat destruct H1 as [H1|H1]; inversion H1; subst; constructor.
Qed.

Lemma new_part file v n : new_ast file v = Ok n -> is_part n = v_part v.
Proof.
  destruct v; cbn [new_ast]; intros H;
    try match type of H with (match ?x with _ => _ end) = _ => destruct x eqn:?; try discriminate end;
    unbind H; inversion H; subst; reflexivity.
Qed.
Lemma new_block file v n : new_ast file v = Ok n ->
  Forall2 (fun v n => new_ast file v = Ok n /\ is_stmt n = true) (v_block v) (block_of n).
Proof.
  destruct v; cbn [new_ast]; intros H;
    try match type of H with (match ?x with _ => _ end) = _ => destruct x eqn:?; try discriminate end;
    unbind H; inversion H; subst; try constructor; cbn [v_block block_of];
    eapply cast_forall2; eassumption.
Qed.

(** The words and lines of here-documents are literals. *)
Definition v_lit (v : vnode) : bool := match v with VLit LString _ _ => true | _ => false end.
Lemma dhwords_lit c ws m c' : dhwords c ws m c' -> Forall (fun v => v_lit v = true) ws.
Proof. induction 1; constructor; auto. Qed.
Lemma dhlines_lit m c ls c' : dhlines m c ls c' -> Forall (fun v => v_lit v = true) ls.
Proof. induction 1; constructor; auto. Qed.
Lemma derived_words neovim B lp fn p ws m ls : derived neovim B lp fn (VHeredoc p ws m ls) ->
  Forall (fun v => v_lit v = true) (ws ++ ls).
Proof.
  intros H. remember (VHeredoc p ws m ls) as v eqn:E. destruct H; subst; try discriminate.
  - pose proof (dexpr_low _ _ _ _ H). apply dexpr_level in H. cbn in H; lia.
  - apply dlval_level in H. cbn in H. lia.
  - inversion E; subst. apply Forall_app. split; [eapply dhwords_lit|eapply dhlines_lit]; eauto.
  - destruct H; try (destruct H0 as [H0|[]]; discriminate H0).
    apply in_app_or in H0. destruct H0 as [H0|[H0|[]]]; [|discriminate H0].
    match goal with X : dtrail _ _ _ |- _ => destruct X; try contradiction end. destruct H0 as [H0|[]]; discriminate H0.
  - repeat destruct H1 as [H1|H1]; inversion H1; subst; discriminate E.
Qed.

Section Facts.
Context (bs : list N) (fails : bool) (file : list N) (root : node) (HA : accepted bs fails file root).
Lemma node_block n : within root n -> Forall (fun m => is_stmt m = true /\ is_part m = false) (block_of n).
Proof.
  intros Hn. destruct (accepted_within _ _ _ _ _ HA Hn) as [nv [lp [fn [v [H1 H2]]]]].
  apply derived_whole in H1. apply new_block in H2.
  induction H2 as [|u m lu lm [K1 K2] F IH]; constructor; inversion H1; subst; auto.
  split; auto. rewrite (new_part _ _ _ K1). auto.
Qed.
Lemma node_words p fs m b : within root (NHeredoc p fs m b) -> 
  Forall (fun n => exists q s, n = NBasicLit q TSTRING s) (fs ++ b).
Proof.
  intros Hn. destruct (accepted_within _ _ _ _ _ HA Hn) as [nv [lp [fn [v [H1 H2]]]]].
  apply heredoc_from in H2. destruct H2 as [q [ws [ls [-> [H2 H3]]]]]. apply derived_words in H1.
  apply Forall_app in H1. destruct H1 as [K1 K2].
  assert (G : forall l r, mapM (fun v => let* n := new_ast file v in expr_elem n) l = Ok r ->
    Forall (fun v => v_lit v = true) l -> Forall (fun n => exists q s, n = NBasicLit q TSTRING s) r).
  { intros l r M F. apply exs_forall2 in M. induction M as [|u n lu ln [M _] MM IH]; inversion F; subst; constructor; auto.
    destruct u; try discriminate. destruct k; try discriminate. cbn in M. inversion M; subst. eauto. }
  apply Forall_app. split; eauto.
Qed.
End Facts.
