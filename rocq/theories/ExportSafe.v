(** The conversion to the public tree succeeds on every derived expression. *)
From Coq Require Import Lia.
From Verif Require Import Base CharClass Reader Vnode Token Ast Cursor Grammar ExprSafe
  ExprParser CmdParser Export.

Section Export.
Context (file : list N).

Definition exports (Q : node -> bool) (v : vnode) : Prop :=
  exists n, new_ast file v = Ok n /\ Q n = true.
Definition exported (v : vnode) : Prop := exports is_expr v.

Lemma mapM_ok {A A'} (g : A -> outcome A') (l : list A) :
  Forall (fun v => exists n, g v = Ok n) l -> exists ns, mapM g l = Ok ns.
Proof.
  induction 1 as [|v l [n Hn] _ [ns Hns]]; cbn [mapM]. eauto.
  rewrite Hn. cbn [bind]. rewrite Hns. cbn [bind]. eauto.
Qed.

Lemma exs_ok l : Forall exported l ->
  exists ns, mapM (fun x => let* y := new_ast file x in expr_elem y) l = Ok ns.
Proof.
  intros H. apply mapM_ok. eapply Forall_impl; [|exact H].
  intros v [n [Hn Hq]]. exists n. rewrite Hn. cbn [bind]. unfold expr_elem. rewrite Hq. auto.
Qed.

Lemma cast_ok Q l : Forall (exports Q) l ->
  exists ns, mapM (fun x => let* y := new_ast file x in assert_node Q y) l = Ok ns.
Proof.
  intros H. apply mapM_ok. eapply Forall_impl; [|exact H].
  intros v [n [Hn Hq]]. exists n. rewrite Hn. cbn [bind]. unfold assert_node. rewrite Hq. auto.
Qed.

Lemma ex_ok v : exported v ->
  exists n, (let* y := new_ast file v in Ok (to_expr y)) = Ok (Some n).
Proof.
  intros [n [Hn Hq]]. exists n. rewrite Hn. cbn [bind]. unfold to_expr. rewrite Hq. auto.
Qed.

Definition oexported (o : option vnode) : Prop :=
  match o with None => True | Some v => exported v end.

Lemma oex_ok o : oexported o ->
  exists n, (match o with None => Ok None | Some x => let* y := new_ast file x in Ok (to_expr y) end) = Ok n.
Proof.
  destruct o; cbn [oexported]; intros H; [|eauto]. apply ex_ok in H. destruct H as [n ->]; eauto.
Qed.

Lemma dparams_idents c ps c' : dparams c ps c' -> Forall (exports is_ident) ps.
Proof.
  induction 1; repeat constructor; auto; eexists; split; cbn; reflexivity.
Qed.

Lemma ident_exports p s : exports is_ident (VIdent p s).
Proof. eexists; split; cbn; reflexivity. Qed.

Ltac step :=
  match goal with
  | H : exported ?v |- context [bind (new_ast file ?v) (fun y => Ok (to_expr y))] =>
    let n := fresh "n" in let Hn := fresh in destruct (ex_ok v H) as [n Hn]; rewrite Hn; clear Hn; cbn [bind]
  | H : oexported ?o |- context [match ?o with None => Ok None | Some _ => _ end] =>
    let n := fresh "n" in let Hn := fresh in destruct (oex_ok o H) as [n Hn]; rewrite Hn; clear Hn; cbn [bind]
  | H : Forall exported ?l |- context [mapM (fun x => let* y := new_ast file x in expr_elem y) ?l] =>
    let n := fresh "ns" in let Hn := fresh in destruct (exs_ok l H) as [n Hn]; rewrite Hn; clear Hn; cbn [bind]
  | H : Forall (exports ?Q) ?l |- context [mapM (fun x => let* y := new_ast file x in assert_node ?Q y) ?l] =>
    let n := fresh "ns" in let Hn := fresh in destruct (cast_ok Q l H) as [n Hn]; rewrite Hn; clear Hn; cbn [bind]
  end.
Ltac fin := eexists; split; [reflexivity|reflexivity].

Lemma derived_exports :
  (forall l c v c', dexpr l c v c' -> exported v) /\
  (forall c o c', dopt c o c' -> oexported o) /\
  (forall k c vs c', dlist k c vs c' -> Forall exported vs) /\
  (forall l c kvs c', dentries l c kvs c' -> Forall (fun kv => exported (fst kv) /\ exported (snd kv)) kvs) /\
  (forall l c v c', dkey l c v c' -> exported v) /\
  (forall c ps c', dname c ps c' -> Forall (exports is_curlypart) ps) /\
  (forall c ps c', dparts c ps c' -> Forall (exports is_curlypart) ps).
Proof.
  apply dexpr_mutind; intros; auto;
    try (unfold exported, exports; cbn [new_ast]; repeat step; fin).
  - (* dict *)
    unfold exported, exports; cbn [new_ast].
    match goal with |- context [mapM ?g kvs] => destruct (mapM_ok g kvs) as [ns Hns] end.
    { eapply Forall_impl; [|exact H]. intros [k v] [Hk Hv]. cbn [fst snd] in *.
      repeat step. eauto. }
    rewrite Hns. cbn [bind]. fin.
  - (* lambda *)
    match goal with X : dparams _ _ _ |- _ => apply dparams_idents in X end.
    unfold exported, exports; cbn [new_ast]; repeat step. fin.
  - exact I.
  - constructor; auto. fin.
  - constructor; auto. fin.
  - constructor; auto. unfold exports; cbn [new_ast]; repeat step. fin.
Qed.

Lemma dexpr_exports l c v c' : dexpr l c v c' -> exported v.
Proof. apply derived_exports. Qed.
Lemma dname_exports c ps c' : dname c ps c' -> Forall (exports is_curlypart) ps.
Proof. apply derived_exports. Qed.
Lemma dopt_exports c o c' : dopt c o c' -> oexported o.
Proof. apply derived_exports. Qed.

Lemma dlval_exports c v c' : dlval c v c' -> exported v.
Proof.
  induction 1; intros; unfold exported, exports; cbn [new_ast];
    repeat match goal with
    | H : dexpr _ _ _ _ |- _ => apply dexpr_exports in H
    | H : dopt _ _ _ |- _ => apply dopt_exports in H
    | H : dname _ _ _ |- _ => apply dname_exports in H
    end; repeat step; try fin.
Qed.

End Export.
