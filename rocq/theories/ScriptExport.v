(** The conversion to the public tree succeeds on every derived script, and the result
    of ParseFile. *)
From Coq Require Import Lia.
From Verif Require Import Base CharClass Utf8 Reader Vnode Token Ast Cursor Grammar TokSafe ExprSafe
  ExprParser CmdTable CmdParser Export ExportSafe Api ApiExpr Script CmdBase CmdArgs CmdPieces CmdOpen
  CmdSafe CmdLoop.

Section Export.
Context (file : list N).

Notation exports := (exports file).
Notation exported := (exported file).
Notation oexported := (oexported file).

Lemma target_exports c v c' : dlval c v c' -> exported v.
Proof. apply dlval_exports. Qed.

Lemma dtargets_exports c vs r c' : dtargets c vs r c' -> Forall exported vs /\ oexported r.
Proof.
  induction 1; cbn [ExportSafe.oexported] in *; split; try tauto; repeat constructor; try tauto;
    eapply dlval_exports; eauto.
Qed.
Lemma dlhs_exports one c l ls r c' : dlhs one c l ls r c' ->
  oexported l /\ Forall exported ls /\ oexported r.
Proof.
  destruct 1; cbn [ExportSafe.oexported].
  - split; [|split; auto]. eapply dlval_exports; eauto.
  - split; auto. eapply dtargets_exports; eauto.
Qed.
Lemma dexprs_exports c vs c' : dexprs c vs c' -> Forall exported vs.
Proof. induction 1; constructor; auto. eapply dexpr_exports; eauto. Qed.
Lemma dlvals_exports c vs c' : dlvals c vs c' -> Forall exported vs.
Proof. induction 1; constructor; auto. eapply dlval_exports; eauto. Qed.
Lemma ddefault_exports m c vs c' : ddefault m c vs c' -> Forall exported vs.
Proof. destruct 1; constructor; auto. eapply dexpr_exports; eauto. Qed.
Lemma dfparams_exports m c rl da c' : dfparams m c rl da c' ->
  Forall (exports is_ident) rl /\ Forall exported da.
Proof.
  induction 1; split; repeat (constructor; auto using ident_exports); try tauto.
  - eapply ddefault_exports; eauto.
  - apply Forall_app. split; [eapply ddefault_exports; eauto|tauto].
Qed.
Lemma lit_exported k p s : exported (VLit k p s).
Proof. eexists; split; cbn; reflexivity. Qed.
Lemma dhwords_exports c ws m c' : dhwords c ws m c' -> Forall exported ws.
Proof. induction 1; constructor; auto using lit_exported. Qed.
Lemma dhlines_exports m c ls c' : dhlines m c ls c' -> Forall exported ls.
Proof. induction 1; constructor; auto using lit_exported. Qed.

Lemma ex_cast Q v : exports Q v ->
  exists n, (let* y := new_ast file v in assert_node Q y) = Ok n.
Proof. intros [n [Hn Hq]]. exists n. rewrite Hn. cbn [bind]. unfold assert_node. rewrite Hq. auto. Qed.
Lemma opt_cast Q o : match o with None => True | Some v => exports Q v end ->
  exists n, optM (fun x => let* y := new_ast file x in assert_node Q y) o = Ok n.
Proof.
  destruct o; cbn [optM]; [|eauto]. intros H. apply ex_cast in H. destruct H as [n ->]. cbn; eauto.
Qed.

Ltac step :=
  match goal with
  | H : exported ?v |- context [bind (new_ast file ?v) (fun y => Ok (to_expr y))] =>
    let n := fresh "n" in let Hn := fresh in
    destruct (ex_ok file v H) as [n Hn]; rewrite Hn; clear Hn; cbn [bind]
  | H : oexported ?o |- context [match ?o with None => Ok None | Some _ => _ end] =>
    let n := fresh "n" in let Hn := fresh in
    destruct (oex_ok file o H) as [n Hn]; rewrite Hn; clear Hn; cbn [bind]
  | H : Forall exported ?l |- context [mapM (fun x => let* y := new_ast file x in expr_elem y) ?l] =>
    let n := fresh "ns" in let Hn := fresh in
    destruct (exs_ok file l H) as [n Hn]; rewrite Hn; clear Hn; cbn [bind]
  | H : Forall (exports ?Q) ?l |- context [mapM (fun x => let* y := new_ast file x in assert_node ?Q y) ?l] =>
    let n := fresh "ns" in let Hn := fresh in
    destruct (cast_ok file Q l H) as [n Hn]; rewrite Hn; clear Hn; cbn [bind]
  | H : match ?o with None => True | Some v => exports ?Q v end |- context [optM _ ?o] =>
    let n := fresh "n" in let Hn := fresh in
    destruct (opt_cast Q o H) as [n Hn]; rewrite Hn; clear Hn; cbn [bind]
  end.
Ltac fin := eexists; split; [reflexivity|reflexivity].
Ltac known :=
  repeat match goal with
  | H : dexpr _ _ _ _ |- _ => apply (dexpr_exports file) in H
  | H : dlval _ _ _ |- _ => apply (dlval_exports file) in H
  | H : dlhs _ _ _ _ _ _ |- _ => apply dlhs_exports in H; destruct H as [? [? ?]]
  | H : dexprs _ _ _ |- _ => apply dexprs_exports in H
  | H : dlvals _ _ _ |- _ => apply dlvals_exports in H
  | H : dfparams _ _ _ _ _ |- _ => apply dfparams_exports in H; destruct H
  | H : dhwords _ _ _ _ |- _ => apply dhwords_exports in H
  | H : dhlines _ _ _ _ |- _ => apply dhlines_exports in H
  end.

Lemma call_exports p f args : exported (VCall p f args) -> exports is_call (VCall p f args).
Proof.
  intros [n [Hn _]]. exists n. split; auto. cbn [new_ast] in Hn.
  destruct (new_ast file f); cbn [bind] in Hn; try discriminate.
  destruct (mapM _ args); cbn [bind] in Hn; try discriminate. inversion Hn; reflexivity.
Qed.
Lemma heredoc_exported p ws m body : Forall exported ws -> Forall exported body ->
  exported (VHeredoc p ws m body).
Proof. intros. unfold ExportSafe.exported, ExportSafe.exports; cbn [new_ast]; repeat step; fin. Qed.

Definition part_ok (Q : node -> bool) (o : option vnode) : Prop :=
  match o with None => True | Some v => exports Q v end.

Lemma script_exports neovim :
  (forall w a c vs, cmd_nodes neovim w a c vs -> Forall (exports is_stmt) vs) /\
  (forall w a c vs, block neovim w a c vs -> Forall (exports is_stmt) vs) /\
  (forall w a c b es el, if_chain neovim w a c b es el ->
     Forall (exports is_stmt) b /\ Forall (exports is_elseif) es /\ part_ok is_else el) /\
  (forall w a c b cs fi, try_chain neovim w a c b cs fi ->
     Forall (exports is_stmt) b /\ Forall (exports is_catch) cs /\ part_ok is_finally fi).
Proof.
  apply script_mutind; intros; unfold part_ok in *; repeat match goal with H : _ /\ _ |- _ => destruct H end;
    known;
    try (constructor; [|constructor]; unfold ExportSafe.exports; cbn [new_ast]; repeat step; fin).
  - (* call *)
    constructor; [|constructor]. apply call_exports in d0. apply ex_cast in d0. destruct d0 as [n Hn].
    exists (NExCall (new_pos file (getpos b)) (new_exarg file e) (Some n)). split; [|reflexivity].
    cbn [new_ast] in *. rewrite Hn. reflexivity.
  - (* heredoc *)
    apply Forall_app. split.
    + match goal with H : dtrail _ _ _ |- _ => destruct H end; repeat constructor. fin.
    + constructor; [|constructor].
      match goal with |- exports _ (VLet _ _ _ _ _ _ (Some ?h)) =>
        assert (Hh : oexported (Some h)) by (apply heredoc_exported; auto);
        set (h0 := Some h) in *; clearbody h0 end.
      unfold ExportSafe.exports. cbn [new_ast]. repeat step. fin.
  - constructor; [|constructor].
    match goal with H : exported ?v, K : Forall exported ?vs |- _ => pose proof (Forall_cons v H K) end.
    unfold ExportSafe.exports; cbn [new_ast]. repeat step. fin.
  - constructor; [|constructor].
    match goal with H : exported ?v, K : Forall exported ?vs |- _ => pose proof (Forall_cons v H K) end.
    unfold ExportSafe.exports; cbn [new_ast]. repeat step. fin.
  - constructor; [|constructor].
    match goal with H : exported ?v, K : Forall exported ?vs |- _ => pose proof (Forall_cons v H K) end.
    unfold ExportSafe.exports; cbn [new_ast]. repeat step. fin.
  - (* echo *)
    constructor; [|constructor]. destruct h as [x [Hx _]]. apply h_x in Hx.
    unfold ExportSafe.exports; cbn [new_ast]. rewrite Hx. repeat step. fin.
  - constructor.
  - apply Forall_app; auto.
  - auto.
  - split; [auto|split; [|auto]]. apply Forall_app. split; auto. constructor; [|constructor].
    unfold ExportSafe.exports; cbn [new_ast]; repeat step; fin.
  - split; [auto|split; [auto|]]. unfold ExportSafe.exports; cbn [new_ast]; repeat step; fin.
  - auto.
  - split; [auto|split; [|auto]]. apply Forall_app. split; auto. constructor; [|constructor].
    unfold ExportSafe.exports; cbn [new_ast]; repeat step; fin.
  - split; [auto|split; [auto|]]. unfold ExportSafe.exports; cbn [new_ast]; repeat step; fin.
Qed.

Lemma file_exports neovim c v : script neovim c v ->
  exists p b, new_ast file v = Ok (NFile p b).
Proof.
  intros [body [c1 [c' [-> [H _]]]]]. apply script_exports in H. cbn [new_ast]. repeat step. eauto.
Qed.
End Export.
