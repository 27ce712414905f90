(** What the derivation of a node tells about its parts, and its transfer to the AST:
    types of fields, operator levels, parameters, targets. *)
From Coq Require Import Lia ZifyBool ZifyNat ZifyN.
From Verif Require Import Base Utf8 CharClass Reader Vnode Token Ast CmdTable Cursor Grammar TokSafe ExprSafe
  ExprParser CmdParser Export ExportSafe Script CmdBase CmdPieces CmdOpen ScriptExport Api Places Nodes Derived.

(** Levels of the internal tree. *)
Definition op_level (o : binop) : nat :=
  match o with
  | BOr => 2 | BAnd => 3 | BCmp _ _ => 4 | BAdd | BSub | BConcat => 5 | BMul | BDiv | BRem => 6
  end%nat.
Definition vlevel (v : vnode) : nat :=
  match v with
  | VTernary _ _ _ _ => 1
  | VBin o _ _ _ => op_level o
  | VUn _ _ _ => 7
  | VSubscript _ _ _ | VSlice _ _ _ _ | VMethod _ _ _ | VCall _ _ _ | VDot _ _ _ => 8
  | VLit _ _ _ | VList _ _ | VDict _ _ | VCurlyName _ _ | VIdent _ _ | VLambda _ _ _ | VParen _ _ => 9
  | _ => 0
  end%nat.

Lemma level_op_level l k o : level_op l k = Some o -> op_level o = l /\ l <> 4%nat.
Proof.
  destruct l as [|[|[|[|[|[|[|]]]]]]]; destruct k; cbn [level_op]; intros H; inversion H; subst; cbn; split; auto.
Qed.
Lemma dexpr_level l c v c' : dexpr l c v c' -> (l <= vlevel v)%nat.
Proof.
  induction 1; cbn [vlevel op_level]; try lia.
  apply level_op_level in H1. lia.
Qed.
Lemma dlval_level c v c' : dlval c v c' -> (8 <= vlevel v)%nat.
Proof. induction 1; cbn [vlevel]; lia. Qed.

Section Shape.
Context (file : list N).
Notation exported := (exported file).
Notation oexported := (oexported file).

Definition vleft (l : option vnode) (ls : list vnode) (rs : option vnode) : Prop :=
  oexported l /\ oexported rs /\
  ((exists v, l = Some v /\ target v /\ ls = [] /\ rs = None) \/
   (l = None /\ ls <> [] /\ Forall target ls /\ (rs = None \/ exists v, rs = Some v /\ target v))).
Definition v_heredoc (v : vnode) : bool := match v with VHeredoc _ _ _ _ => true | _ => false end.

Definition vshape (v : vnode) : Prop :=
  match v with
  | VTernary _ a b c => exported a /\ exported b /\ exported c /\
      (2 <= vlevel a /\ 1 <= vlevel b /\ 1 <= vlevel c)%nat
  | VBin o _ a b => exported a /\ exported b /\
      match o with
      | BCmp _ _ => (5 <= vlevel a /\ 5 <= vlevel b)%nat
      | _ => (op_level o <= vlevel a /\ S (op_level o) <= vlevel b)%nat
      end
  | VUn _ _ a => exported a /\ (7 <= vlevel a)%nat
  | VSubscript _ a b => exported a /\ exported b /\ (8 <= vlevel a /\ 1 <= vlevel b)%nat
  | VSlice _ a x y => exported a /\ oexported x /\ oexported y /\ (8 <= vlevel a)%nat
  | VMethod _ a r => match r with
      | VCall _ f args => exported a /\ exported f /\ (length args <= 20)%nat /\ (8 <= vlevel a /\ 9 <= vlevel f)%nat
      | _ => False end
  | VCall _ f args => exported f /\ (length args <= 20)%nat /\ (8 <= vlevel f)%nat
  | VDot _ a _ => exported a /\ (8 <= vlevel a)%nat
  | VDict _ kvs => Forall (fun kv => exported (fst kv) /\ exported (snd kv)) kvs
  | VCurlyExpr _ x => exported x
  | VLambda _ ps b => lambda_params ps /\ exported b
  | VParen _ x => exported x
  | VFunction _ _ _ l rl da _ _ => exported l /\ function_name l /\
      (forall p s, l = VIdent p s -> plain_name_ok s) /\ fn_params rl da
  | VDelfunction _ _ l => exported l /\ function_name l
  | VReturn _ _ l => oexported l
  | VLet _ _ op l ls rs r | VConst _ _ op l ls rs r => vleft l ls rs /\
      exists x, r = Some x /\ exported x /\
        ((In op assign_ops /\ v_heredoc x = false) \/ (op = T "=<<" /\ v_heredoc x = true))
  | VUnlet _ _ ls | VLockvar _ _ _ ls | VUnlockvar _ _ _ ls =>
      exists x r, ls = x :: r /\ Forall target r
  | VIf _ _ _ c _ _ _ | VElseif _ _ _ c | VWhile _ _ _ c _ => exported c
  | VFor _ _ _ l ls rs r _ => vleft l ls rs /\ exported r
  | VThrow _ _ x | VEval _ _ x => exported x
  | _ => True
  end.

Lemma dexpr_not_heredoc l c v c' : (1 <= l)%nat -> dexpr l c v c' -> v_heredoc v = false.
Proof. intros Hl H. apply dexpr_level in H. destruct v; cbn [vlevel v_heredoc] in *; auto; lia. Qed.

Lemma dexpr_shape l c v c' : dexpr l c v c' -> vshape v.
Proof.
  induction 1; cbn [vshape]; auto;
    repeat match goal with
    | H : dexpr _ _ ?v _ |- _ =>
      lazymatch goal with K : exported v |- _ => fail | _ => idtac end;
      pose proof (dexpr_exports file _ _ _ _ H); pose proof (dexpr_level _ _ _ _ H)
    | H : dopt _ _ _ |- _ => apply (dopt_exports file) in H
    | H : dentries _ _ _ _ |- _ => apply (derived_exports file) in H
    end; auto;
    try match goal with H : level_op _ _ = Some ?o |- _ =>
      apply level_op_level in H; destruct H; split; auto; split; auto;
      destruct o; cbn [op_level] in *; subst; try lia end;
    repeat split; auto; try lia.
Qed.
Lemma dlval_shape c v c' : dlval c v c' -> vshape v.
Proof.
  induction 1; cbn [vshape]; auto;
    repeat match goal with
    | H : dexpr _ _ ?v _ |- _ =>
      lazymatch goal with K : exported v |- _ => fail | _ => idtac end;
      pose proof (dexpr_exports file _ _ _ _ H); pose proof (dexpr_level _ _ _ _ H)
    | H : dlval _ ?v _ |- _ =>
      lazymatch goal with K : exported v |- _ => fail | _ => idtac end;
      pose proof (dlval_exports file _ _ _ H); pose proof (dlval_level _ _ _ H)
    | H : dopt _ _ _ |- _ => apply (dopt_exports file) in H
    end; repeat split; auto; try lia.
Qed.
Lemma dtargets_left c vs r c' : dtargets c vs r c' ->
  vs <> [] /\ Forall target vs /\ (r = None \/ exists v, r = Some v /\ target v).
Proof.
  induction 1; (split; [discriminate|]); (split; [repeat constructor; tauto|]); try tauto; eauto.
Qed.
Lemma dlhs_left (one : vnode -> Prop) c l ls r c' : (forall v, one v -> target v) ->
  dlhs one c l ls r c' -> vleft l ls r.
Proof.
  intros H1 H. destruct (dlhs_exports file _ _ _ _ _ _ H) as [K1 [K2 K3]]. split; auto. split; auto.
  destruct H. left; eauto 10. right. apply dtargets_left in H0. tauto.
Qed.
Lemma const_is_target v : const_target v -> target v.
Proof. destruct v; cbn; auto; contradiction. Qed.
Lemma dlvals_targets c vs c' : dlvals c vs c' -> Forall target vs.
Proof. induction 1; constructor; auto. Qed.

Lemma cmd_shape neovim w a c vs v : cmd_nodes neovim w a c vs -> In v vs -> vshape v.
Proof.
  intros H Hv. destruct H; try (destruct Hv as [<-|[]]); cbn [vshape oexported ExportSafe.oexported]; auto;
    repeat match goal with
    | H : dexpr 1 _ ?v _ |- _ =>
      lazymatch goal with K : exported v |- _ => fail | _ => idtac end;
      pose proof (dexpr_exports file _ _ _ _ H); pose proof (dexpr_not_heredoc _ _ _ _ (le_n 1) H)
    | H : dlval _ ?v _ |- _ =>
      lazymatch goal with K : exported v |- _ => fail | _ => idtac end;
      pose proof (dlval_exports file _ _ _ H)
    | H : dlhs target _ _ _ _ _ |- _ => apply (dlhs_left target _ _ _ _ _ (fun v K => K)) in H
    | H : dlhs const_target _ _ _ _ _ |- _ => apply (dlhs_left const_target _ _ _ _ _ const_is_target) in H
    | H : dlvals _ _ _ |- _ => apply dlvals_targets in H
    end; auto; try (split; auto); eauto.
  - eauto 10.
  - apply in_app_or in Hv. destruct Hv as [Hv|[<-|[]]].
    + destruct H4; try contradiction. destruct Hv as [<-|[]]. exact I.
    + cbn [vshape]. split; auto. exists (VHeredoc (getpos b) ws m body). split; auto. split; auto.
      apply heredoc_exported. eapply dhwords_exports; eauto. eapply dhlines_exports; eauto.
  - eexists. split; [reflexivity|]. split; auto. left. split; auto. cbn; tauto.
Qed.

Lemma derived_shape neovim B lp fn v : derived neovim B lp fn v -> vshape v.
Proof.
  destruct 1; cbn [vshape]; auto.
  - eapply dexpr_shape; eauto.
  - eapply dlval_shape; eauto.
  - eapply dexpr_exports; eauto.
  - eapply cmd_shape; eauto.
  - repeat destruct H1 as [H1|H1]; inversion H1; subst; exact I.
  - eapply dexpr_exports; eauto.
Qed.

(** ** Transfer *)

Lemma ex_some v o : exported v -> (let* y := new_ast file v in Ok (to_expr y)) = Ok o ->
  exists n, o = Some n /\ new_ast file v = Ok n /\ is_expr n = true.
Proof.
  intros [n [H1 H2]] H. rewrite H1 in H. cbn [bind] in H. unfold to_expr in H. rewrite H2 in H. inversion H; eauto.
Qed.
Lemma oex_opt x o : oexported x ->
  (match x with None => Ok None | Some v => let* y := new_ast file v in Ok (to_expr y) end) = Ok o ->
  (x = None /\ o = None) \/ (exists v n, x = Some v /\ o = Some n /\ new_ast file v = Ok n /\ is_expr n = true).
Proof.
  destruct x as [v|]; cbn [ExportSafe.oexported]; intros H1 H. right. destruct (ex_some _ _ H1 H) as [n [-> [H2 H3]]]; eauto 10.
  inversion H; auto.
Qed.
Lemma mapM_all {A A'} (g : A -> outcome A') (Q : A -> A' -> Prop) l r : mapM g l = Ok r ->
  (forall x y, In x l -> g x = Ok y -> Q x y) -> Forall2 Q l r.
Proof.
  revert r; induction l as [|x l IH]; cbn [mapM]; intros r H K.
  - inversion H; constructor.
  - destruct (g x) as [z| | |] eqn:E; cbn [bind] in H; try discriminate.
    destruct (mapM g l) as [zs| | |] eqn:E2; cbn [bind] in H; try discriminate.
    inversion H; subst. constructor. apply K; auto. left; auto. apply IH; auto. intros; apply K; auto. right; auto.
Qed.
Lemma exs_forall2 l r : mapM (fun x => let* y := new_ast file x in expr_elem y) l = Ok r ->
  Forall2 (fun v n => new_ast file v = Ok n /\ is_expr n = true) l r.
Proof.
  intros H. apply (mapM_all _ _ _ _ H). intros x y _ E. destruct (new_ast file x); cbn [bind] in E; try discriminate.
  unfold expr_elem in E. destruct (is_expr a) eqn:F; inversion E; subst; auto.
Qed.
Lemma cast_forall2 f l r : mapM (fun x => let* y := new_ast file x in assert_node f y) l = Ok r ->
  Forall2 (fun v n => new_ast file v = Ok n /\ f n = true) l r.
Proof.
  intros H. apply (mapM_all _ _ _ _ H). intros x y _ E. destruct (new_ast file x); cbn [bind] in E; try discriminate.
  unfold assert_node in E. destruct (f a) eqn:F; inversion E; subst; auto.
Qed.
Lemma Forall2_r {A A'} (Q : A -> A' -> Prop) (R : A' -> Prop) l r : Forall2 Q l r -> (forall x y, Q x y -> R y) -> Forall R r.
Proof. induction 1; constructor; eauto. Qed.

Ltac unbind H :=
  repeat match type of H with
  | bind ?m _ = Ok _ => let E := fresh "E" in destruct m eqn:E; cbn [bind] in H; [|discriminate|discriminate|discriminate]
  end.

Lemma new_ast_level v n : new_ast file v = Ok n -> level n = N.of_nat (vlevel v).
Proof.
  destruct v; cbn [new_ast]; intros H;
    try match type of H with (match ?x with _ => _ end) = _ => destruct x eqn:?; try discriminate end;
    unbind H; inversion H; subst; try reflexivity.
  match goal with |- context[bin_token ?x] => destruct x as [| |o1 m| | | | | | ] end; try destruct o1, m; reflexivity.
Qed.

Lemma ocast_some f x o : (match x with None => Panic PType | Some v =>
     let* y := (let* y := new_ast file v in assert_node f y) in Ok (Some y) end) = Ok o ->
  exists n, o = Some n /\ f n = true.
Proof.
  destruct x as [v|]; [|discriminate]. intros H.
  destruct (let* y := new_ast file v in assert_node f y) eqn:E; cbn [bind] in H; try discriminate.
  inversion H; subst. exists a. split; auto. eapply cast_from; eauto.
Qed.
Lemma optcast_opt f x o : optM (fun v => let* y := new_ast file v in assert_node f y) x = Ok o ->
  o = None \/ exists n, o = Some n /\ f n = true.
Proof.
  destruct x as [v|]; cbn [optM]; intros H.
  - destruct (let* y := new_ast file v in assert_node f y) eqn:E; cbn [bind] in H; try discriminate.
    inversion H; subst. right. exists a. split; auto. eapply cast_from; eauto.
  - inversion H; auto.
Qed.
Lemma exs_exprs l r : mapM (fun x => let* y := new_ast file x in expr_elem y) l = Ok r -> exprs r.
Proof. intros H. apply exs_forall2 in H. eapply Forall2_r; [exact H|]. intros x y K; apply K. Qed.
Lemma cast_all f l r : mapM (fun x => let* y := new_ast file x in assert_node f y) l = Ok r ->
  Forall (fun n => f n = true) r.
Proof. intros H. apply cast_forall2 in H. eapply Forall2_r; [exact H|]. intros x y K; apply K. Qed.
Lemma forall_imp (P Q : node -> Prop) l : Forall P l -> (forall n, P n -> Q n) -> Forall Q l.
Proof. intros H K. eapply Forall_impl; eauto. Qed.
Lemma expr_some n : is_expr n = true -> expr (Some n). Proof. unfold expr; eauto. Qed.
Hint Resolve expr_some : core.

(** Open a successful export of a node with known shape. *)
Ltac open_ast H :=
  try match type of H with (match ?x with _ => _ end) = _ => destruct x eqn:?; try discriminate end;
  unbind H; inversion H; subst;
  repeat match goal with
  | K : _ /\ _ |- _ => destruct K
  end;
  repeat match goal with
  | X : exported ?v, E : (let* y := new_ast file ?v in Ok (to_expr y)) = Ok _ |- _ =>
    let n := fresh "n" in destruct (ex_some _ _ X E) as [n [-> [? ?]]]; clear E
  | X : oexported ?v, E : (match ?v with None => Ok None | Some _ => _ end) = Ok _ |- _ =>
    let n := fresh "n" in let w := fresh "w" in
    destruct (oex_opt _ _ X E) as [[-> ->]|[w [n [-> [-> [? ?]]]]]]; clear E
  | E : (match _ with None => Panic PType | Some _ => _ end) = Ok _ |- _ =>
    let n := fresh "n" in destruct (ocast_some _ _ _ E) as [n [-> ?]]; clear E
  | E : optM _ _ = Ok _ |- _ =>
    let n := fresh "n" in destruct (optcast_opt _ _ _ E) as [->|[n [-> ?]]]; clear E
  | E : (let* y := new_ast file ?v in assert_node _ y) = Ok _ |- _ => apply cast_from in E; destruct E
  end.

Lemma is_ident_eq n : is_ident n = true -> exists p s, n = NIdent p s.
Proof. destruct n; try discriminate; eauto. Qed.
Lemma is_call_eq n : is_call n = true -> exists g p args, n = NCall g p args.
Proof. destruct n; try discriminate; eauto. Qed.

Ltac kind_in n := match goal with
  | H : ?f n = true |- _ => unfold f in H; destruct n; try discriminate H; eauto 10
  end.
Ltac kind_of := match goal with |- context[Some ?n] => is_var n; kind_in n end.

Lemma dict_typed l r : Forall (fun kv => exported (fst kv) /\ exported (snd kv)) l ->
  mapM (fun kv => match kv with (k, v) =>
     let* k' := (let* y := new_ast file k in Ok (to_expr y)) in
     let* v' := (let* y := new_ast file v in Ok (to_expr y)) in Ok (k', v') end) l = Ok r ->
  Forall (fun kv => expr (fst kv) /\ expr (snd kv)) r.
Proof.
  intros H K.
  assert (G : Forall2 (fun x y => expr (fst y) /\ expr (snd y)) l r).
  { apply (mapM_all _ _ _ _ K). intros [k v] y Hin E. rewrite Forall_forall in H.
    destruct (H _ Hin) as [H1 H2]. cbn [fst snd] in *. unbind E. inversion E; subst.
    destruct (ex_some _ _ H1 E0) as [n1 [-> [_ ?]]]. destruct (ex_some _ _ H2 E1) as [n2 [-> [_ ?]]].
    cbn [fst snd]. auto. }
  eapply Forall2_r; [exact G|]. auto.
Qed.

Lemma shape_typed v n : vshape v -> new_ast file v = Ok n -> typed n.
Proof.
  intros S H. destruct v; cbn [new_ast] in H; cbn [vshape vleft] in S; unfold vleft in S;
    try match type of S with _ /\ exists x, _ => destruct S as [S [? [-> [? ?]]]] end;
    open_ast H; cbn [typed]; try exact I; try (inversion H; subst; exact I);
    repeat match goal with
    | |- _ /\ _ => split
    | |- stmts _ => eapply cast_all; eassumption
    | |- exprs _ => eapply exs_exprs; eassumption
    | |- expr (Some _) => auto
    | |- opt_expr None => left; reflexivity
    | |- opt_expr (Some _) => right; auto
    | |- ?x = ?x \/ _ => left; reflexivity
    | |- Some _ = None \/ _ => right; kind_of
    | |- idents _ => eapply forall_imp; [eapply cast_all; eassumption|let x := fresh in let K := fresh in intros x K; cbv beta in K; kind_in x]
    | |- Forall _ _ => eapply forall_imp; [eapply cast_all; eassumption|let x := fresh in let K := fresh in intros x K; cbv beta in K; kind_in x]
    | |- exists _, _ => kind_of
    end; auto.
  eapply dict_typed; eassumption.
Qed.

(** Operator levels. *)
Lemma of_level_le k v n : new_ast file v = Ok n -> (N.to_nat k <= vlevel v)%nat -> of_level k (Some n).
Proof. intros H K. exists n. split; auto. rewrite (new_ast_level _ _ H). lia. Qed.
Lemma shape_nested v n : vshape v -> new_ast file v = Ok n -> well_nested n.
Proof.
  intros S H. destruct v; cbn [new_ast] in H; cbn [vshape vleft] in S; unfold vleft in S;
    try match type of S with _ /\ exists x, _ => destruct S as [S [? [-> [? ?]]]] end;
    open_ast H; cbn [well_nested]; try exact I; try (inversion H; subst; exact I);
    repeat match goal with |- _ /\ _ => split end;
    try (eapply of_level_le; [eassumption|]; cbn; lia).
  - match goal with |- context[bin_token ?x] => destruct x as [| |o1 m| | | | | | ] end; try destruct o1, m;
      cbn [bin_token cmp_token binary_level op_level] in *;
      repeat match goal with H : (_ /\ _)%nat |- _ => destruct H end;
      split; (eapply of_level_le; [eassumption|]; cbn; lia).
  - match goal with |- context[un_token ?x] => destruct x end; cbn; auto.
Qed.

(** Numbers of arguments. *)
Lemma mapM_length {A A'} (g : A -> outcome A') l r : mapM g l = Ok r -> length r = length l.
Proof.
  intros H. assert (K : Forall2 (fun _ _ => True) l r) by (apply (mapM_all _ _ _ _ H); auto).
  clear H. induction K; cbn [length]; congruence.
Qed.
Lemma shape_args v n : vshape v -> new_ast file v = Ok n -> few_args n.
Proof.
  intros S H. destruct v; cbn [new_ast] in H; cbn [vshape vleft] in S; unfold vleft in S;
    try match type of S with _ /\ exists x, _ => destruct S as [S [? [-> [? ?]]]] end;
    open_ast H; cbn [few_args]; try exact I; try (inversion H; subst; exact I);
    match goal with E : mapM _ _ = Ok _ |- _ => rewrite (mapM_length _ _ _ E); assumption end.
Qed.

(** Parameters. *)
Lemma isargname_spec s : isargname s = true -> arg_name s.
Proof.
  destruct s as [|r w]; cbn [isargname]; [discriminate|]. rewrite andb_true_iff. intros [H1 H2].
  exists r, w. split; auto. unfold iswordc1 in H1. split. lia.
  rewrite forallb_forall in H2. apply Forall_forall. intros x Hx. apply H2 in Hx. unfold iswordc, isalnum in Hx. lia.
Qed.
Lemma idents_names ps l : Forall2 (fun v n => new_ast file v = Ok n /\ is_ident n = true) ps l ->
  (forall v, In v ps -> exists p s, v = VIdent p s) -> map ident_name l = map name_of ps.
Proof.
  induction 1 as [|v n ps l [H1 _] H IH]; cbn [map]; intros K; auto.
  rewrite IH by (intros; apply K; right; auto). f_equal.
  destruct (K v (or_introl eq_refl)) as [p [s ->]]. cbn [new_ast] in H1. inversion H1; subst. reflexivity.
Qed.
Lemma params_idents ps rest : Forall is_param ps -> (rest = [] \/ exists v, rest = [v] /\ is_rest v) ->
  forall v, In v (ps ++ rest) -> exists p s, v = VIdent p s.
Proof.
  intros H1 H2 v Hv. apply in_app_or in Hv. destruct Hv as [Hv|Hv].
  - rewrite Forall_forall in H1. apply H1 in Hv. destruct v; try contradiction; eauto.
  - destruct H2 as [->|[u [-> Hu]]]. contradiction. destruct Hv as [<-|[]]. destruct u; try contradiction; eauto.
Qed.
Lemma params_names ps rest : Forall is_param ps -> (rest = [] \/ exists v, rest = [v] /\ is_rest v) ->
  Forall arg_name (map name_of ps) /\ (map name_of rest = [] \/ map name_of rest = [T "..."]).
Proof.
  intros H1 H2. split.
  - apply Forall_forall. intros s Hs. apply in_map_iff in Hs. destruct Hs as [v [<- Hv]].
    rewrite Forall_forall in H1. apply H1 in Hv. destruct v; try contradiction. apply isargname_spec; auto.
  - destruct H2 as [->|[u [-> Hu]]]; auto. right. destruct u; try contradiction. cbn in Hu. subst. reflexivity.
Qed.
Lemma shape_params v n : vshape v -> new_ast file v = Ok n -> params_good n.
Proof.
  intros S H. destruct v; cbn [new_ast] in H; cbn [vshape vleft] in S; unfold vleft in S;
    try match type of S with _ /\ exists x, _ => destruct S as [S [? [-> [? ?]]]] end;
    open_ast H; cbn [params_good]; try exact I; try (inversion H; subst; exact I).
  - match goal with K : lambda_params _ |- _ => destruct K as [ps [rest [-> [H1' [H2' H3']]]]] end.
    match goal with K : mapM _ _ = Ok _ |- _ => apply cast_forall2 in K;
      rewrite (idents_names _ _ K (params_idents _ _ H1' H3')) end.
    rewrite map_app. exists (map name_of ps), (map name_of rest). split; auto.
    destruct (params_names _ _ H1' H3'). split; auto. split; auto. split; auto.
    apply Forall_forall. intros x _ [].
  - match goal with K : fn_params _ _ |- _ => destruct K as [ps [rest [-> [H1' [H2' [H3' [H4' H5']]]]]]] end.
    match goal with K : mapM _ (ps ++ rest) = Ok _ |- _ => apply cast_forall2 in K;
      rewrite (idents_names _ _ K (params_idents _ _ H1' H4')) end.
    rewrite map_app. destruct (params_names _ _ H1' H4') as [K1 K2]. split.
    + exists (map name_of ps), (map name_of rest). split; auto. split; auto. split; auto. split; auto.
      apply Forall_forall. intros x Hx. apply in_map_iff in Hx. destruct Hx as [u [<- Hu]].
      rewrite Forall_forall in H3'. apply H3' in Hu. cbn [In]. intuition.
    + exists (map name_of ps), (map name_of rest). split; auto. split; auto. split; auto.
      rewrite map_length. match goal with K : mapM _ _ = Ok ?l |- (length ?l <= _)%nat => rewrite (mapM_length _ _ _ K) end.
      auto.
Qed.

(** Targets and names. *)
Lemma isvarbody_spec s : isvarbody s = true ->
  exists r w, s = r :: w /\ (isalpha r = true \/ r = C "_") /\
    Forall (fun x => isalpha x = true \/ isdigit x = true \/ x = C "_" \/ x = C "#") w.
Proof.
  destruct s as [|r w]; cbn [isvarbody]; [discriminate|]. rewrite andb_true_iff. intros [H1 H2].
  exists r, w. split; auto. unfold iswordc1 in H1. split. lia.
  rewrite forallb_forall in H2. apply Forall_forall. intros x Hx. apply H2 in Hx. unfold iswordc, isalnum in Hx. lia.
Qed.
Lemma mem_N_In x l : mem_N x l = true -> In x l.
Proof.
  induction l as [|y l IH]; cbn [mem_N]; [discriminate|]. rewrite orb_true_iff. intros [H|H].
  left. symmetry. apply N.eqb_eq. auto. right; auto.
Qed.
Lemma isvarname_spec s : isvarname s = true -> var_name s.
Proof.
  unfold isvarname, var_name. rewrite orb_true_iff. intros [H|H]. left. apply isvarbody_spec; auto.
  right. destruct s as [|a [|b t]]; try discriminate. 
  assert (K : isscope a = true /\ b = C ":" /\ (t = [] \/ isvarbody t = true)).
  { destruct t; rewrite ?andb_true_iff, ?N.eqb_eq in H; tauto. }
  destruct K as [K1 [-> K2]]. exists a, t. split; auto. split. apply mem_N_In; auto.
  destruct K2 as [->|K2]; auto. right. apply isvarbody_spec; auto.
Qed.
Lemma target_assignable v n : target v -> new_ast file v = Ok n -> assignable n.
Proof.
  destruct v; cbn [target]; try contradiction; cbn [new_ast]; intros G H; unbind H; inversion H; subst; cbn [assignable]; auto.
  - destruct k; try contradiction; cbn; unfold lit_name; cbn; auto.
  - apply isvarname_spec; auto.
Qed.
Lemma targets_assignable ls l : Forall target ls -> Forall2 (fun v n => new_ast file v = Ok n /\ is_expr n = true) ls l ->
  Forall assignable l.
Proof.
  intros H K. induction K as [|v n ls l [H1 _] _ IH]; constructor; inversion H; subst; auto. eapply target_assignable; eauto.
Qed.
Lemma left_ok l ls rs l' ls' rs' : vleft l ls rs ->
  (match l with None => Ok None | Some v => let* y := new_ast file v in Ok (to_expr y) end) = Ok l' ->
  mapM (fun x => let* y := new_ast file x in expr_elem y) ls = Ok ls' ->
  (match rs with None => Ok None | Some v => let* y := new_ast file v in Ok (to_expr y) end) = Ok rs' ->
  left_side assignable l' ls' rs'.
Proof.
  intros [K1 [K2 K3]] E1 E2 E3. apply exs_forall2 in E2.
  destruct (oex_opt _ _ K1 E1) as [[-> ->]|[v [n [-> [-> [H1 _]]]]]].
  - right. destruct K3 as [[v [? _]]|[_ [H1 [H2 H3]]]]; [discriminate|]. split; auto. split.
    { intros ->. inversion E2; subst. congruence. }
    split. { eapply targets_assignable; eauto. }
    destruct (oex_opt _ _ K2 E3) as [[-> ->]|[v [n [-> [-> [H4 _]]]]]]; auto. right. exists n. split; auto.
    destruct H3 as [?|[u [E H5]]]; [discriminate|]. inversion E; subst. eapply target_assignable; eauto.
  - left. destruct K3 as [[u [E [H2 [-> ->]]]]|[? _]]; [|discriminate]. inversion E; subst. exists n.
    inversion E2; inversion E3; subst. split; auto. split; auto. eapply target_assignable; eauto.
Qed.
Lemma function_name_ok v n : function_name v -> new_ast file v = Ok n -> func_name n.
Proof.
  destruct v; cbn [function_name]; try contradiction; cbn [new_ast]; intros G H; unbind H; inversion H; subst; cbn [func_name]; auto.
  destruct k; try contradiction; cbn; unfold lit_name; cbn; auto.
Qed.
Lemma heredoc_iff v n : new_ast file v = Ok n -> (is_heredoc (Some n) <-> v_heredoc v = true).
Proof.
  intros H. destruct v; cbn [new_ast] in H;
    try match type of H with (match ?x with _ => _ end) = _ => destruct x eqn:?; try discriminate end;
    unbind H; inversion H; subst; cbn [v_heredoc]; unfold is_heredoc; split; intros K; try discriminate;
    try (destruct K as [? [? [? [? K]]]]; discriminate K); eauto 10.
Qed.
Lemma rest_targets v r l : Forall target r ->
  mapM (fun x => let* y := new_ast file x in expr_elem y) (v :: r) = Ok l ->
  exists n rest, l = n :: rest /\ Forall assignable rest.
Proof.
  intros H E. apply exs_forall2 in E. inversion E; subst. do 2 eexists. split; eauto. eapply targets_assignable; eauto.
Qed.
Lemma ident_from v p s : new_ast file v = Ok (NIdent p s) -> exists q, v = VIdent q s.
Proof.
  intros H. destruct v; cbn [new_ast] in H;
    try match type of H with (match ?x with _ => _ end) = _ => destruct x eqn:?; try discriminate end;
    unbind H; inversion H; subst; eauto.
Qed.
Lemma let_ops op0 : In op0 assign_ops -> assignment_op op0.
Proof. unfold assign_ops, assignment_op. cbn [In]. tauto. Qed.
Lemma shape_command v n : vshape v -> new_ast file v = Ok n -> command_shape n.
Proof.
  intros S H. destruct v; cbn [new_ast] in H; cbn [vshape] in S;
    try (open_ast H; exact I); try (inversion H; subst; exact I).
  - destruct S as [K1 [K2 [K3 _]]]. unbind H. inversion H; subst. cbn [command_shape].
    destruct (ex_some _ _ K1 E0) as [x [-> [K4 K5]]]. exists x. split; auto. split. eapply function_name_ok; eauto.
    intros q s ->. destruct (ident_from _ _ _ K4) as [q' ->]. apply (K3 _ _ eq_refl).
  - open_ast H; cbn [command_shape]. eexists. split; [reflexivity|]. eapply function_name_ok; eauto.
  - open_ast H; cbn [command_shape]. destruct a; try discriminate; eauto.
  - destruct S as [K1 [x [-> [K2 K3]]]]. unbind H. inversion H; subst. cbn [command_shape].
    destruct (ex_some _ _ K2 E2) as [y [-> [K4 K5]]]. split. eapply left_ok; eauto.
    rewrite (heredoc_iff _ _ K4). destruct K3 as [[K3 K6]|K3]; [left|right; auto]. split. apply let_ops; auto. congruence.
  - destruct S as [K1 [x [-> [K2 K3]]]]. unbind H. inversion H; subst. cbn [command_shape].
    destruct (ex_some _ _ K2 E2) as [y [-> [K4 K5]]]. split. eapply left_ok; eauto.
    rewrite (heredoc_iff _ _ K4). destruct K3 as [[K3 K6]|K3]; [left|right; auto]. split. apply let_ops; auto. congruence.
  - destruct S as [x [r [-> K]]]. unbind H. inversion H; subst. cbn [command_shape]. eapply rest_targets; eauto.
  - destruct S as [x [r [-> K]]]. unbind H. inversion H; subst. cbn [command_shape]. eapply rest_targets; eauto.
  - destruct S as [x [r [-> K]]]. unbind H. inversion H; subst. cbn [command_shape]. eapply rest_targets; eauto.
  - destruct S as [K1 K2]. unbind H. inversion H; subst. cbn [command_shape]. eapply left_ok; eauto.
Qed.
End Shape.
