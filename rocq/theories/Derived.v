(** How each node of a parsed tree was derived from the text, and the transfer to the
    public AST. *)
From Coq Require Import Lia ZifyBool ZifyNat ZifyN.
From Verif Require Import Base Utf8 CharClass Reader Vnode Token Ast CmdTable Cursor Grammar TokSafe ExprSafe
  ExprParser CmdParser Export ExportSafe Script CmdBase CmdPieces CmdOpen ScriptExport Nodes.

(** The nodes below a node of the internal tree. The call inside a method node has no
    counterpart in the AST; its parts count as parts of the method node. *)
Definition ov (o : option vnode) : list vnode := match o with Some n => [n] | None => [] end.
Definition vfields (v : vnode) : list vnode :=
  match v with
  | VTernary _ a b c => [a; b; c]
  | VBin _ _ a b | VSubscript _ a b | VDot _ a b => [a; b]
  | VUn _ _ a => [a]
  | VSlice _ a x y => a :: ov x ++ ov y
  | VMethod _ a r => a :: match r with VCall _ f args => f :: args | _ => [] end
  | VCall _ a args => a :: args
  | VLit _ _ _ | VIdent _ _ | VCurlyPart _ _ => []
  | VList _ vs => vs
  | VDict _ kvs => flat_map (fun kv => [fst kv; snd kv]) kvs
  | VCurlyName _ ps => ps
  | VCurlyExpr _ x => [x]
  | VLambda _ ps b => ps ++ [b]
  | VHeredoc _ rl _ b => rl ++ b
  | VParen _ x => [x]
  | VToplevel _ b => b
  | VComment _ _ | VExcmd _ _ _ | VEndfunction _ _ | VEndif _ _ | VEndwhile _ _ | VEndfor _ _
  | VContinue _ _ | VBreak _ _ | VEndtry _ _ | VEchohl _ _ _ => []
  | VFunction _ _ b l rl da _ en => b ++ l :: rl ++ da ++ ov en
  | VDelfunction _ _ l => [l]
  | VReturn _ _ l => ov l
  | VExcall _ _ l => [l]
  | VLet _ _ _ l ls rs r | VConst _ _ _ l ls rs r => ov l ++ ls ++ ov rs ++ ov r
  | VUnlet _ _ ls | VLockvar _ _ _ ls | VUnlockvar _ _ _ ls => ls
  | VIf _ _ b c eis el en => b ++ c :: eis ++ ov el ++ ov en
  | VElseif _ _ b c => b ++ [c]
  | VElse _ _ b => b
  | VWhile _ _ b c en => b ++ c :: ov en
  | VFor _ _ b l ls rs r en => b ++ ov l ++ ls ++ ov rs ++ r :: ov en
  | VTry _ _ b cs fi en => b ++ cs ++ ov fi ++ ov en
  | VCatch _ _ b _ => b
  | VFinally _ _ b => b
  | VThrow _ _ x | VEval _ _ x => [x]
  | VEcho _ _ _ xs | VExecute _ _ xs => xs
  end.

Definition v_loop (v : vnode) : bool := match v with VWhile _ _ _ _ _ | VFor _ _ _ _ _ _ _ _ => true | _ => false end.
Definition v_func (v : vnode) : bool := match v with VFunction _ _ _ _ _ _ _ _ => true | _ => false end.

(** Fields of the exported node come from fields of the internal one. *)
Lemma in_on n o : In n (on o) -> o = Some n.
Proof. destruct o; cbn; intuition congruence. Qed.

Lemma mapM_In {A A'} (g : A -> outcome A') l r : mapM g l = Ok r ->
  forall y, In y r -> exists x, In x l /\ g x = Ok y.
Proof.
  revert r; induction l as [|x l IH]; cbn [mapM]; intros r H y Hy.
  - inversion H; subst; contradiction.
  - destruct (g x) as [z| | |] eqn:E; cbn [bind] in H; try discriminate.
    destruct (mapM g l) as [zs| | |] eqn:E2; cbn [bind] in H; try discriminate.
    inversion H; subst. destruct Hy as [<-|Hy]. exists x; split; auto. left; auto.
    destruct (IH zs eq_refl y Hy) as [x' [H1 H2]]. exists x'; split; auto. right; auto.
Qed.

Section Transfer.
Context (file : list N).
Definition from (v : vnode) (n : node) : Prop := exists u, In u (vfields v) /\ new_ast file u = Ok n.

Lemma mapM_stm f l r n : mapM (fun x => let* y := new_ast file x in assert_node f y) l = Ok r ->
  In n r -> exists u, In u l /\ new_ast file u = Ok n.
Proof.
  intros H Hn. destruct (mapM_In _ _ _ H _ Hn) as [x [H1 H2]]. exists x; split; auto.
  destruct (new_ast file x); cbn [bind] in H2; try discriminate. unfold assert_node in H2.
  destruct (f a); inversion H2; subst; auto.
Qed.
Lemma mapM_exs l r n : mapM (fun x => let* y := new_ast file x in expr_elem y) l = Ok r ->
  In n r -> exists u, In u l /\ new_ast file u = Ok n.
Proof.
  intros H Hn. destruct (mapM_In _ _ _ H _ Hn) as [x [H1 H2]]. exists x; split; auto.
  destruct (new_ast file x); cbn [bind] in H2; try discriminate. unfold expr_elem in H2.
  destruct (is_expr a); inversion H2; subst; auto.
Qed.
Lemma ex_from v o n : (let* y := new_ast file v in Ok (to_expr y)) = Ok o -> In n (on o) -> new_ast file v = Ok n.
Proof.
  intros H Hn. apply in_on in Hn. subst. destruct (new_ast file v); cbn [bind] in H; try discriminate.
  unfold to_expr in H. destruct (is_expr a); inversion H; auto.
Qed.
Lemma oex_from x o n : (match x with None => Ok None | Some v => let* y := new_ast file v in Ok (to_expr y) end) = Ok o ->
  In n (on o) -> exists u, In u (ov x) /\ new_ast file u = Ok n.
Proof.
  destruct x as [v|]; intros H Hn. exists v. split; [left; auto|]. eapply ex_from; eauto.
  inversion H; subst. contradiction.
Qed.
Lemma cast_from f v n : (let* y := new_ast file v in assert_node f y) = Ok n -> new_ast file v = Ok n /\ f n = true.
Proof.
  destruct (new_ast file v); cbn [bind]; try discriminate. unfold assert_node. destruct (f a) eqn:E; intros H; inversion H; subst; auto.
Qed.
Lemma ocast_from f x o n : (match x with None => Panic PType | Some v =>
     let* y := (let* y := new_ast file v in assert_node f y) in Ok (Some y) end) = Ok o ->
  In n (on o) -> exists u, In u (ov x) /\ new_ast file u = Ok n.
Proof.
  destruct x as [v|]; [|discriminate]. intros H Hn. exists v. split; [left; auto|]. apply in_on in Hn. subst.
  destruct (let* y := new_ast file v in assert_node f y) eqn:E; cbn [bind] in H; try discriminate.
  inversion H; subst. eapply cast_from; eauto.
Qed.
Lemma optcast_from f x o n : optM (fun v => let* y := new_ast file v in assert_node f y) x = Ok o ->
  In n (on o) -> exists u, In u (ov x) /\ new_ast file u = Ok n.
Proof.
  destruct x as [v|]; cbn [optM]; intros H Hn. exists v. split; [left; auto|]. apply in_on in Hn. subst.
  destruct (let* y := new_ast file v in assert_node f y) eqn:E; cbn [bind] in H; try discriminate.
  inversion H; subst. eapply cast_from; eauto.
  inversion H; subst. contradiction.
Qed.

Ltac split_in H :=
  repeat match type of H with
  | In _ (_ ++ _) => apply in_app_or in H; destruct H as [H|H]
  end.
Ltac unbind H :=
  repeat match type of H with
  | bind ?m _ = Ok _ => let E := fresh "E" in destruct m eqn:E; cbn [bind] in H; [|discriminate|discriminate|discriminate]
  end.
Ltac pick := rewrite ?in_app_iff; cbn [In]; rewrite ?in_app_iff; tauto.

Lemma fields_from v n m : new_ast file v = Ok n -> In m (fields n) -> from v m.
Proof.
  intros H Hm. unfold from.
  destruct v; cbn [new_ast] in H;
    try (inversion H; subst; contradiction);
    try match type of H with (match ?x with _ => _ end) = _ => destruct x eqn:?; try discriminate end;
    unbind H; inversion H; subst n; cbn [fields] in Hm; split_in Hm; cbn [vfields];
    try match goal with
    | E : mapM (fun x => let* y := new_ast file x in assert_node _ y) _ = Ok ?r, Hm : In m ?r |- _ =>
      destruct (mapM_stm _ _ _ _ E Hm) as [u [Hu1 Hu2]]; exists u; split; [pick|exact Hu2]
    | E : mapM (fun x => let* y := new_ast file x in expr_elem y) _ = Ok ?r, Hm : In m ?r |- _ =>
      destruct (mapM_exs _ _ _ E Hm) as [u [Hu1 Hu2]]; exists u; split; [pick|exact Hu2]
    | E : (let* y := new_ast file ?v in Ok (to_expr y)) = Ok ?a, Hm : In m (on ?a) |- _ =>
      exists v; split; [pick|exact (ex_from _ _ _ E Hm)]
    | E : (match _ with None => Ok None | Some _ => _ end) = Ok ?a, Hm : In m (on ?a) |- _ =>
      destruct (oex_from _ _ _ E Hm) as [u [Hu1 Hu2]]; exists u; split; [pick|exact Hu2]
    | E : (match _ with None => Panic PType | Some _ => _ end) = Ok ?a, Hm : In m (on ?a) |- _ =>
      destruct (ocast_from _ _ _ _ E Hm) as [u [Hu1 Hu2]]; exists u; split; [pick|exact Hu2]
    | E : optM _ _ = Ok ?a, Hm : In m (on ?a) |- _ =>
      destruct (optcast_from _ _ _ _ E Hm) as [u [Hu1 Hu2]]; exists u; split; [pick|exact Hu2]
    | E : (let* y := new_ast file ?v in assert_node _ y) = Ok ?a, Hm : In m (on (Some ?a)) |- _ =>
      exists v; split; [pick|destruct Hm as [<-|[]]; exact (proj1 (cast_from _ _ _ E))]
    end.
  - (* VDict *)
    apply in_flat_map in Hm. destruct Hm as [[k v] [Hkv Hm]].
    destruct (mapM_In _ _ _ E _ Hkv) as [[k0 v0] [H1 H2]].
    destruct (let* y := new_ast file k0 in Ok (to_expr y)) eqn:E1; cbn [bind] in H2; try discriminate.
    destruct (let* y := new_ast file v0 in Ok (to_expr y)) eqn:E2; cbn [bind] in H2; try discriminate.
    inversion H2; subst. cbn [fst snd] in Hm. apply in_app_or in Hm. destruct Hm as [Hm|Hm].
    + exists k0. split; [|exact (ex_from _ _ _ E1 Hm)]. apply in_flat_map. exists (k0, v0). cbn; auto.
    + exists v0. split; [|exact (ex_from _ _ _ E2 Hm)]. apply in_flat_map. exists (k0, v0). cbn; auto.
Qed.
End Transfer.

(** * Derivations of nodes *)

Section Derived.
Context (neovim : bool) (B : cursor).

(** [derived lp fn v]: the node [v] was derived from the text [B]; [lp] and [fn] tell
    whether a statement at this place is inside a loop and inside a function. *)
Inductive derived (lp fn : bool) : vnode -> Prop :=
| de_expr l c v c' : dexpr l c v c' -> sfx c B -> derived lp fn v
| de_lval c v c' : dlval c v c' -> sfx c B -> derived lp fn v
| de_param c t c' : token_at c t c' -> sfx c B -> In (tk t) [KIdent; KDotDotDot] ->
    derived lp fn (VIdent (tp t) (tv t))
| de_member c s c' : spells s c c' -> sfx c B -> some_of iswordc s -> derived lp fn (VIdent (getpos c) s)
| de_part c s c' : spells s c c' -> sfx c B -> s <> [] -> derived lp fn (VCurlyPart (getpos c) s)
| de_brace c v c' : dexpr 1 c v c' -> sfx c B -> derived lp fn (VCurlyExpr (getpos c) v)
| de_key d x p t r s c' : d = Cons x p t -> spells (r :: s) d c' -> sfx d B -> litkey_text (r :: s) ->
    derived lp fn (VLit LString (getpos t) (T "'" ++ (r :: s) ++ T "'"))
| de_word c s c' : spells s c c' -> sfx c B -> derived lp fn (VLit LString (getpos c) s)
| de_heredoc b d c ws m c1 cms c2 ls c' : spells (T "=<<") d c -> dhwords c ws m c1 -> dtrail c1 cms c2 ->
    dhlines m c2 ls c' -> sfx b B -> sfx d B -> sfx c B -> derived lp fn (VHeredoc (getpos b) ws m ls)
| de_stmt w a c vs v : cmd_nodes neovim w a c vs -> In v vs -> sfx a B ->
    pl_loop w = lp -> pl_fun w = fn -> derived lp fn v
| de_end a b d c e P k : head neovim P a b d c e -> sfx a B ->
    In (P, k) [(T "parse_cmd_endfunction", VEndfunction); (T "parse_cmd_endif", VEndif);
               (T "parse_cmd_endwhile", VEndwhile); (T "parse_cmd_endfor", VEndfor);
               (T "parse_cmd_endtry", VEndtry)] ->
    derived lp fn (k (getpos b) e)
| de_elseif w a b d c e v c1 c' body : head neovim (T "parse_cmd_elseif") a b d c e -> sfx a B ->
    dexpr 1 c v c1 -> block neovim (in_block w) c1 c' body ->
    pl_loop w = lp -> pl_fun w = fn -> derived lp fn (VElseif (getpos b) e body v)
| de_else w a b d c e c' body : head neovim (T "parse_cmd_else") a b d c e -> sfx a B ->
    block neovim (in_block w) c c' body ->
    pl_loop w = lp -> pl_fun w = fn -> derived lp fn (VElse (getpos b) e body)
| de_catch w a b d c e pat c1 c' body : head neovim (T "parse_cmd_catch") a b d c e -> sfx a B ->
    dpattern c pat c1 -> block neovim (in_block w) c1 c' body ->
    pl_loop w = lp -> pl_fun w = fn -> derived lp fn (VCatch (getpos b) e body pat)
| de_finally w a b d c e c' body : head neovim (T "parse_cmd_finally") a b d c e -> sfx a B ->
    block neovim (in_block w) c c' body ->
    pl_loop w = lp -> pl_fun w = fn -> derived lp fn (VFinally (getpos b) e body)
| de_file c c1 body : block neovim top_place c c1 body -> sfx c B -> lp = false -> fn = false ->
    derived lp fn (VToplevel (getpos c) body).

(** Suffixes of the text. *)
Ltac know x := lazymatch goal with K : sfx x B |- _ => fail | _ => idtac end.
Ltac new1 c' L Hc := know c'; pose proof (sfx_trans _ _ _ L Hc).
Ltac fwd := repeat match goal with
  | Hc : sfx ?c B, H : tok_at _ ?c _ ?c' |- _ => new1 c' (tok_at_sfx _ _ _ _ H) Hc
  | Hc : sfx ?c B, H : token_at ?c _ ?c' |- _ => new1 c' (token_sfx _ _ _ H) Hc
  | Hc : sfx ?c B, H : spells _ ?c ?c' |- _ => new1 c' (spells_sfx _ _ _ H) Hc
  | Hc : sfx ?c B, H : blank ?c ?c' |- _ => new1 c' (blank_sfx _ _ H) Hc
  | Hc : sfx ?c B, H : gap ?c ?c' |- _ => new1 c' (gap_sfx _ _ H) Hc
  | Hc : sfx ?c B, H : dexpr _ ?c _ ?c' |- _ => new1 c' (proj1 (dexpr_shrinks _ _ _ _ H)) Hc
  | Hc : sfx ?c B, H : dlval ?c _ ?c' |- _ => new1 c' (proj1 (dlval_shrinks _ _ _ H)) Hc
  | Hc : sfx ?c B, H : dopt ?c _ ?c' |- _ => new1 c' (dopt_sfx _ _ _ H) Hc
  | Hc : sfx ?c B, H : dlist _ ?c _ ?c' |- _ => new1 c' (dlist_sfx _ _ _ _ H) Hc
  | Hc : sfx ?c B, H : dkey _ ?c _ ?c' |- _ => new1 c' (proj1 (dkey_shrinks _ _ _ _ H)) Hc
  | Hc : sfx ?c B, H : dparams ?c _ ?c' |- _ => new1 c' (proj1 (dparams_sfx _ _ _ H)) Hc
  | Hc : sfx ?c B, H : dlvals ?c _ ?c' |- _ => new1 c' (dlvals_sfx _ _ _ H) Hc
  | Hc : sfx ?c B, H : dexprs ?c _ ?c' |- _ => new1 c' (dexprs_sfx _ _ _ H) Hc
  | Hc : sfx ?c B, H : ddefault _ ?c _ ?c' |- _ => new1 c' (ddefault_sfx _ _ _ _ H) Hc
  | Hc : sfx ?c B, H : dfparams _ ?c _ _ ?c' |- _ => new1 c' (dfparams_sfx _ _ _ _ _ H) Hc
  | Hc : sfx ?c B, H : dattrs _ ?c _ ?c' |- _ => new1 c' (dattrs_sfx _ _ _ _ H) Hc
  | Hc : sfx ?c B, H : ddepth ?c _ ?c' |- _ => new1 c' (ddepth_sfx _ _ _ H) Hc
  | Hc : sfx ?c B, H : dpattern ?c _ ?c' |- _ => new1 c' (dpattern_sfx _ _ _ H) Hc
  | Hc : sfx ?c B, H : dhwords ?c _ _ ?c' |- _ => new1 c' (dhwords_sfx _ _ _ _ H) Hc
  | Hc : sfx ?c B, H : dtrail ?c _ ?c' |- _ => new1 c' (dtrail_sfx _ _ _ H) Hc
  | Hc : sfx ?c B, H : dhlines _ ?c _ ?c' |- _ => new1 c' (dhlines_sfx _ _ _ _ H) Hc
  | Hc : sfx ?c B, H : dlhs _ ?c _ _ _ ?c' |- _ => new1 c' (dlhs_sfx _ _ _ _ _ _ H) Hc
  | Hc : sfx ?c B, H : dtargets ?c _ _ ?c' |- _ => new1 c' (dtargets_sfx _ _ _ _ H) Hc
  | Hc : sfx ?a B, H : head _ _ ?a _ _ ?c _ |- _ => new1 c (proj1 (head_sfx _ _ _ _ _ _ _ H)) Hc
  | Hc : sfx ?a B, H : block _ _ ?a ?c _ |- _ => new1 c (block_sfx _ _ _ _ _ H) Hc
  | Hc : sfx ?a B, H : if_chain _ _ ?a ?c _ _ _ |- _ => new1 c (proj1 (proj2 (proj2 (script_sfx _))) _ _ _ _ _ _ H) Hc
  | Hc : sfx ?a B, H : try_chain _ _ ?a ?c _ _ _ |- _ => new1 c (proj2 (proj2 (proj2 (script_sfx _))) _ _ _ _ _ _ H) Hc
  end.

(** Parts of expressions. *)
Ltac each := repeat first [apply Forall_nil | apply Forall_cons].
Definition dany (v : vnode) : Prop := forall lp fn, derived lp fn v.

Lemma dexpr_any l c v c' : dexpr l c v c' -> sfx c B -> dany v.
Proof. intros H2 H1 lp fn. eapply de_expr; eauto. Qed.
Lemma dlist_any k c vs c' : dlist k c vs c' -> sfx c B -> Forall dany vs.
Proof.
  intros H Hc; revert Hc; induction H; intros Hc; fwd; each; auto; eapply dexpr_any; eauto.
Qed.
Lemma dopt_any c o c' : dopt c o c' -> sfx c B -> Forall dany (ov o).
Proof. intros H Hc; destruct H; cbn [ov]; each; eapply dexpr_any; eauto. Qed.
Lemma dkey_any l c v c' : dkey l c v c' -> sfx c B -> dany v.
Proof.
  intros H Hc; destruct H; fwd. eapply dexpr_any; eauto. intros lp fn. eapply de_key; eauto.
Qed.
Lemma dentries_any l c kvs c' : dentries l c kvs c' -> sfx c B -> Forall dany (flat_map (fun kv => [fst kv; snd kv]) kvs).
Proof.
  intros H Hc; revert Hc; induction H; intros Hc; fwd; cbn [flat_map fst snd app];
    each; auto; try (eapply dexpr_any; eauto; fail); eapply dkey_any; eauto.
Qed.
Lemma dparams_any c vs c' : dparams c vs c' -> sfx c B -> Forall dany vs.
Proof.
  intros H Hc; revert Hc; induction H; intros Hc; fwd; each; auto;
    intros lp fn; eapply de_param; eauto; rewrite H0; cbn; auto.
Qed.
Lemma dparts_any c ps c' : dparts c ps c' -> sfx c B -> Forall dany ps.
Proof.
  intros H Hc; revert Hc; induction H; intros Hc; fwd; each; auto.
  - intros lp fn. eapply de_part; eauto. apply H0.
  - intros lp fn. eapply de_brace; eauto.
Qed.
Lemma is_sid_nonempty s : is_sid s -> s <> [].
Proof. unfold is_sid. intros H ->. vm_compute in H. discriminate. Qed.
Lemma dname_any c ps c' : dname c ps c' -> sfx c B -> Forall dany ps.
Proof.
  intros H Hc; destruct H; fwd. eapply dparts_any; eauto.
  constructor. intros lp fn. eapply de_part; eauto. apply is_sid_nonempty; auto. eapply dparts_any; eauto.
Qed.
Lemma dexpr_fields l c v c' : dexpr l c v c' -> sfx c B -> Forall dany (vfields v).
Proof.
  intros H Hc; revert Hc; induction H; intros Hc; fwd; cbn [vfields]; auto.
  all: repeat match goal with
    | |- Forall _ [] => constructor
    | |- Forall _ (_ ++ _) => apply Forall_app; split
    | |- Forall dany (_ :: _) => constructor
    end; auto.
  all: try (eapply dexpr_any; eauto; fail).
  all: try (eapply dopt_any; eauto; fail).
  all: try (eapply dlist_any; eauto; fail).
  all: try (eapply dentries_any; eauto; fail).
  all: try (eapply dparams_any; eauto; fail).
  all: try (eapply dname_any; eauto; fail).
  intros lp fn. eapply de_member; eauto.
Qed.
Lemma dlval_any c v c' : dlval c v c' -> sfx c B -> dany v.
Proof. intros H2 H1 lp fn. eapply de_lval; eauto. Qed.
Lemma dlval_fields c v c' : dlval c v c' -> sfx c B -> Forall dany (vfields v).
Proof.
  intros H Hc; revert Hc; induction H; intros Hc; fwd; cbn [vfields]; auto.
  all: repeat match goal with
    | |- Forall _ [] => constructor
    | |- Forall _ (_ ++ _) => apply Forall_app; split
    | |- Forall dany (_ :: _) => constructor
    end; auto.
  all: try (eapply dexpr_any; eauto; fail).
  all: try (eapply dlval_any; eauto; fail).
  all: try (eapply dopt_any; eauto; fail).
  all: try (eapply dname_any; eauto; fail).
  intros lp fn. eapply de_member; eauto.
Qed.

(** Parts of commands. *)
Lemma dlvals_any c vs c' : dlvals c vs c' -> sfx c B -> Forall dany vs.
Proof.
  intros H Hc; revert Hc; induction H; intros Hc; fwd; each; auto; eapply dlval_any; eauto.
Qed.
Lemma dexprs_any c vs c' : dexprs c vs c' -> sfx c B -> Forall dany vs.
Proof.
  intros H Hc; revert Hc; induction H; intros Hc; fwd; each; auto; eapply dexpr_any; eauto.
Qed.
Lemma dtargets_any c vs r c' : dtargets c vs r c' -> sfx c B -> Forall dany (vs ++ ov r).
Proof.
  intros H Hc; revert Hc; induction H; intros Hc; fwd; cbn [ov app]; each; auto; eapply dlval_any; eauto.
Qed.
Lemma dlhs_any one c l ls r c' : dlhs one c l ls r c' -> sfx c B -> Forall dany (ov l ++ ls ++ ov r).
Proof.
  intros H Hc; destruct H; fwd; cbn [ov app]. each. eapply dlval_any; eauto.
  eapply dtargets_any; eauto.
Qed.
Lemma ddefault_any m c vs c' : ddefault m c vs c' -> sfx c B -> Forall dany vs.
Proof. intros H Hc; destruct H; fwd; each. eapply dexpr_any; eauto. Qed.
Lemma dfparams_any m c vs ds c' : dfparams m c vs ds c' -> sfx c B -> Forall dany vs /\ Forall dany ds.
Proof.
  intros H Hc; revert Hc; induction H; intros Hc; fwd.
  - split; constructor.
  - split; each. intros lp fn. eapply de_param; eauto. rewrite H0; cbn; auto.
  - split; [|eapply ddefault_any; eauto]. each. intros lp fn. eapply de_param; eauto. rewrite H0; cbn; auto.
  - destruct IHdfparams as [G5 G6]; auto. split.
    + constructor; auto. intros lp fn. eapply de_param; eauto. rewrite H0; cbn; auto.
    + apply Forall_app. split; auto. eapply ddefault_any; eauto.
Qed.
Lemma dhwords_any c ws m c' : dhwords c ws m c' -> sfx c B -> Forall dany ws.
Proof.
  intros H Hc; revert Hc; induction H; intros Hc; fwd; each; auto.
  intros lp fn. eapply de_word; eauto.
Qed.
Lemma dhlines_any m c ls c' : dhlines m c ls c' -> sfx c B -> Forall dany ls.
Proof.
  intros H Hc; revert Hc; induction H; intros Hc; fwd; each; auto.
  - intros lp fn. eapply de_word; eauto.
  - apply IHdhlines. match goal with K : sfx (Cons _ _ _) B |- _ => eapply sfx_tail; exact K end.
Qed.

(** Statements of blocks and chains. *)
Lemma block_any w a c vs : block neovim w a c vs -> sfx a B ->
  Forall (derived (pl_loop w) (pl_fun w)) vs.
Proof.
  intros H Ha. revert Ha. induction H; intros Ha; [constructor|]. fwd.
  apply Forall_app. split; auto. apply Forall_forall. intros v Hv. eapply de_stmt; eauto.
Qed.
Lemma if_chain_any w a c body es el : if_chain neovim w a c body es el -> sfx a B ->
  Forall (derived (pl_loop w) (pl_fun w)) (body ++ es ++ ov el).
Proof.
  intros H Ha. revert Ha. induction H; intros Ha; fwd; cbn [ov]; rewrite ?app_nil_r.
  - apply (block_any (in_block w) _ _ _ H Ha).
  - rewrite app_assoc. apply Forall_app. split. { specialize (IHif_chain Ha). cbn [ov] in IHif_chain. rewrite app_nil_r in IHif_chain. auto. }
    each. eapply de_elseif; eauto.
  - rewrite app_assoc. apply Forall_app. split. { specialize (IHif_chain Ha). cbn [ov] in IHif_chain. rewrite app_nil_r in IHif_chain. auto. }
    each. eapply de_else; eauto.
Qed.
Lemma try_chain_any w a c body cs fi : try_chain neovim w a c body cs fi -> sfx a B ->
  Forall (derived (pl_loop w) (pl_fun w)) (body ++ cs ++ ov fi).
Proof.
  intros H Ha. revert Ha. induction H; intros Ha; fwd; cbn [ov]; rewrite ?app_nil_r.
  - apply (block_any (in_block w) _ _ _ H Ha).
  - rewrite app_assoc. apply Forall_app. split. { specialize (IHtry_chain Ha). cbn [ov] in IHtry_chain. rewrite app_nil_r in IHtry_chain. auto. }
    each. eapply de_catch; eauto.
  - rewrite app_assoc. apply Forall_app. split. { specialize (IHtry_chain Ha). cbn [ov] in IHtry_chain. rewrite app_nil_r in IHtry_chain. auto. }
    each. eapply de_finally; eauto.
Qed.

Lemma header_B x a b d c e : header neovim a b d c x e -> sfx a B -> sfx b B /\ sfx d B.
Proof.
  intros H Ha. apply header_sfx in H. destruct H as [H1 [H2 [H3 _]]].
  assert (sfx b B) by (eapply sfx_trans; eauto). split; auto. eapply sfx_trans; eauto.
Qed.
Lemma head_B P a b d c e : head neovim P a b d c e -> sfx a B -> sfx b B /\ sfx d B.
Proof. intros [x [H _]] Ha. eapply header_B; eauto. Qed.

Lemma any_at lp fn vs : Forall dany vs -> Forall (derived lp fn) vs.
Proof. intros H. eapply Forall_impl; [|exact H]. intros v K. apply K. Qed.
Lemma any_one lp fn v : dany v -> derived lp fn v.
Proof. intros K. apply K. Qed.

Lemma end_any a b d c e P k : head neovim P a b d c e ->
  In (P, k) [(T "parse_cmd_endfunction", VEndfunction); (T "parse_cmd_endif", VEndif);
             (T "parse_cmd_endwhile", VEndwhile); (T "parse_cmd_endfor", VEndfor);
             (T "parse_cmd_endtry", VEndtry)] -> sfx a B -> dany (k (getpos b) e).
Proof. intros H1 H2 H3 lp fn. eapply de_end; eauto. Qed.

Lemma stmt_fields w a c vs v : cmd_nodes neovim w a c vs -> In v vs -> sfx a B ->
  Forall (derived (pl_loop w || v_loop v) (pl_fun w || v_func v)) (vfields v).
Proof.
  intros H Hv Ha. destruct H; try (destruct Hv as [<-|[]]); cbn [vfields v_loop v_func];
    rewrite ?orb_false_r, ?orb_true_r; fwd;
    repeat match goal with
    | H : dlhs _ ?c _ _ _ _, Hc : sfx ?c B |- _ =>
      let K := fresh "K" in pose proof (dlhs_any _ _ _ _ _ _ H Hc) as K; clear H;
      apply Forall_app in K; let K1 := fresh "K" in destruct K as [K1 K];
      apply Forall_app in K; let K2 := fresh "K" in destruct K as [K2 K]
    | H : dfparams _ ?c _ _ _, Hc : sfx ?c B |- _ =>
      let K1 := fresh "K" in let K2 := fresh "K" in
      destruct (dfparams_any _ _ _ _ _ H Hc) as [K1 K2]; clear H
    | H : if_chain _ _ ?c _ _ _ _, Hc : sfx ?c B |- _ =>
      let K := fresh "K" in pose proof (if_chain_any _ _ _ _ _ _ H Hc) as K; clear H;
      apply Forall_app in K; let K1 := fresh "K" in destruct K as [K1 K];
      apply Forall_app in K; let K2 := fresh "K" in destruct K as [K2 K]
    | H : try_chain _ _ ?c _ _ _ _, Hc : sfx ?c B |- _ =>
      let K := fresh "K" in pose proof (try_chain_any _ _ _ _ _ _ H Hc) as K; clear H;
      apply Forall_app in K; let K1 := fresh "K" in destruct K as [K1 K];
      apply Forall_app in K; let K2 := fresh "K" in destruct K as [K2 K]
    | H : block _ ?w ?c _ _, Hc : sfx ?c B |- _ =>
      let K := fresh "K" in pose proof (block_any w _ _ _ H Hc) as K; clear H; cbn [in_function in_loop pl_loop pl_fun] in K
    end;
    repeat match goal with
    | |- Forall _ (_ ++ _) => apply Forall_app; split
    | |- Forall _ (_ :: _) => apply Forall_cons
    | |- Forall _ [] => apply Forall_nil
    | |- Forall _ (ov (Some _)) => cbn [ov]
    | |- Forall _ (ov None) => cbn [ov]
    end;
    try assumption;
    try (apply any_at; assumption);
    try (apply any_one; eapply dexpr_any; eassumption);
    try (apply any_one; eapply dlval_any; eassumption);
    try (apply any_at; eapply dexprs_any; eassumption);
    try (apply any_at; eapply dlvals_any; eassumption);
    try (apply any_one; eapply end_any; [eassumption|cbn [In]; tauto|eassumption]).
  (* a here-document *)
  apply in_app_or in Hv. destruct Hv as [Hv|[<-|[]]].
  - destruct H4; try contradiction. destruct Hv as [<-|[]]. constructor.
  - cbn [vfields v_loop v_func ov]. rewrite !orb_false_r.
    repeat (apply Forall_app; split); try (apply any_at; assumption).
    constructor; [|constructor]. eapply de_heredoc; eauto. exact (proj1 (head_B _ _ _ _ _ _ H Ha)).
Qed.

(** The parts of a derived node are derived. *)
Lemma derived_fields lp fn v : derived lp fn v ->
  Forall (derived (lp || v_loop v) (fn || v_func v)) (vfields v).
Proof.
  intros H. destruct H; subst; cbn [vfields v_loop v_func]; rewrite ?orb_false_r; fwd;
    repeat match goal with
    | H : block _ ?w ?c _ _, Hc : sfx ?c B |- _ =>
      let K := fresh "K" in pose proof (block_any w _ _ _ H Hc) as K; clear H; cbn [in_block pl_loop pl_fun] in K
    end;
    repeat match goal with
    | |- Forall _ (_ ++ _) => apply Forall_app; split
    | |- Forall _ (_ :: _) => apply Forall_cons
    | |- Forall _ [] => apply Forall_nil
    end; try assumption;
    try (apply any_one; eapply dexpr_any; eassumption);
    try (apply any_at; eapply dexpr_fields; eassumption);
    try (apply any_at; eapply dlval_fields; eassumption);
    try (apply any_at; eapply dhwords_any; eassumption);
    try (apply any_at; eapply dhlines_any; eassumption);
    try (eapply stmt_fields; eassumption).
  repeat destruct H1 as [H1|H1]; inversion H1; subst; constructor.
Qed.

End Derived.

(** * Nodes of the AST *)

Lemma new_ast_kind file v n : new_ast file v = Ok n -> is_loop n = v_loop v /\ is_func n = v_func v.
Proof.
  destruct v; cbn [new_ast]; intros H;
    try match type of H with (match ?x with _ => _ end) = _ => destruct x eqn:?; try discriminate end;
    repeat match type of H with
    | bind ?m _ = Ok _ => destruct m; cbn [bind] in H; try discriminate
    end; inversion H; subst; split; reflexivity.
Qed.

(** [parsed neovim B file lp fn n]: a node of an AST, with the derivation it comes from. *)
Definition parsed (neovim : bool) (B : cursor) (file : list N) (lp fn : bool) (n : node) : Prop :=
  exists v, derived neovim B lp fn v /\ new_ast file v = Ok n.

Lemma parsed_fields neovim B file lp fn n m : parsed neovim B file lp fn n -> In m (fields n) ->
  parsed neovim B file (lp || is_loop n) (fn || is_func n) m.
Proof.
  intros [v [H1 H2]] Hm. destruct (fields_from file v n m H2 Hm) as [u [Hu1 Hu2]].
  destruct (new_ast_kind _ _ _ H2) as [-> ->]. exists u. split; auto.
  pose proof (derived_fields _ _ _ _ _ H1) as K. rewrite Forall_forall in K. auto.
Qed.
Lemma parsed_inside neovim B file root : parsed neovim B file false false root ->
  forall lp fn n, inside root lp fn n -> parsed neovim B file lp fn n.
Proof. intros H lp fn n. induction 1; auto. eapply parsed_fields; eauto. Qed.
Lemma within_inside root n : within root n -> exists lp fn, inside root lp fn n.
Proof.
  induction 1. exists false, false. constructor. destruct IHwithin as [lp [fn H1]].
  do 2 eexists. econstructor; eauto.
Qed.
