(** The command parser, part 4: the stack of open blocks. *)
From Coq Require Import Lia ZifyBool ZifyNat ZifyN.
From Verif Require Import Base CharClass Reader Vnode Tokenizer ExprParser CmdTable CmdParser
  Cursor Grammar TokSafe ExprSafe Script Fault Safe CmdBase CmdArgs CmdPieces.

Section Open.
Context (neovim : bool).

Lemma header_sfx a b d c x e : header neovim a b d c x e ->
  sfx b a /\ sfx d b /\ sfx c d /\ (clen d < clen b)%nat.
Proof.
  intros H. pose proof (same_line_sfx _ _ (h_ab _ _ _ _ _ _ _ H)) as H1.
  pose proof (same_line_sfx _ _ (h_dc _ _ _ _ _ _ _ H)) as H2.
  destruct (h_name _ _ _ _ _ _ _ H) as [s [Hs [_ [_ [b' [K1 K2]]]]]].
  apply same_line_sfx in K2. pose proof (spells_clen _ _ _ K1). pose proof (spells_sfx _ _ _ K1).
  pose proof (sfx_clen _ _ K2). destruct s; [congruence|]. cbn [length] in *.
  split; [auto|split; [eapply sfx_trans; eauto|split; [auto|lia]]].
Qed.
Lemma head_sfx P a b d c e : head neovim P a b d c e -> sfx c a /\ (clen c < clen a)%nat.
Proof.
  intros [x [H _]]. apply header_sfx in H. destruct H as [H1 [H2 [H3 H4]]].
  split. eauto using sfx_trans. apply sfx_clen in H1. apply sfx_clen in H3. lia.
Qed.

Lemma dlvals_sfx c vs c' : dlvals c vs c' -> sfx c' c.
Proof.
  induction 1. apply blank_sfx; auto. apply blank_sfx in H. apply dlval_shrinks in H0. destruct H0.
  eauto using sfx_trans.
Qed.
Lemma dexprs_sfx c vs c' : dexprs c vs c' -> sfx c' c.
Proof.
  induction 1. apply blank_sfx; auto. apply blank_sfx in H. apply dexpr_shrinks in H0. destruct H0.
  eauto using sfx_trans.
Qed.
Lemma ddefault_sfx m c vs c' : ddefault m c vs c' -> sfx c' c.
Proof.
  destruct 1. constructor. apply tok_at_sfx in H. apply dexpr_shrinks in H0. destruct H0.
  eauto using sfx_trans.
Qed.
Lemma dfparams_sfx m c vs ds c' : dfparams m c vs ds c' -> sfx c' c.
Proof.
  induction 1; repeat match goal with
  | H : tok_at _ _ _ _ |- _ => apply tok_at_sfx in H
  | H : token_at _ _ _ |- _ => apply token_sfx in H
  | H : ddefault _ _ _ _ |- _ => apply ddefault_sfx in H
  end; eauto 10 using sfx_trans.
Qed.
Lemma dattrs_sfx a c a' c' : dattrs a c a' c' -> sfx c' c.
Proof.
  induction 1. apply blank_sfx; auto. apply blank_sfx in H. apply spells_sfx in H0.
  eauto using sfx_trans.
Qed.
Lemma ddepth_sfx c z c' : ddepth c z c' -> sfx c' c.
Proof.
  destruct 1. apply blank_sfx; auto. apply blank_sfx in H. apply spells_sfx in H0.
  eauto using sfx_trans.
Qed.
Lemma dpattern_sfx c s c' : dpattern c s c' -> sfx c' c.
Proof.
  destruct 1; match goal with H : blank _ _ |- _ => apply blank_sfx in H end; auto.
  - destruct H3 as [q H3]. apply spells_sfx in H3. apply sfx_tail in H3. apply sfx_tail in H.
    eauto using sfx_trans.
  - apply spells_sfx in H3. apply sfx_tail in H. eauto using sfx_trans.
Qed.
Lemma dhwords_sfx c ws m c' : dhwords c ws m c' -> sfx c' c.
Proof.
  induction 1; match goal with H : blank _ _ |- _ => apply blank_sfx in H end;
  match goal with H : spells _ _ _ |- _ => apply spells_sfx in H end; eauto using sfx_trans.
Qed.

Ltac sfx_all :=
  repeat match goal with
  | H : tok_at _ _ _ _ |- _ => apply tok_at_sfx in H
  | H : blank _ _ |- _ => apply blank_sfx in H
  | H : spells _ _ _ |- _ => apply spells_sfx in H
  | H : token_at _ _ _ |- _ => apply token_sfx in H
  | H : gap _ _ |- _ => apply gap_sfx in H
  | H : same_line _ _ |- _ => apply same_line_sfx in H
  | H : head _ _ _ _ _ _ _ |- _ => apply head_sfx in H; destruct H
  | H : dexpr _ _ _ _ |- _ => apply dexpr_shrinks in H; destruct H
  | H : dlval _ _ _ |- _ => apply dlval_shrinks in H; destruct H
  | H : dlhs _ _ _ _ _ _ |- _ => apply dlhs_sfx in H
  | H : dlvals _ _ _ |- _ => apply dlvals_sfx in H
  | H : dexprs _ _ _ |- _ => apply dexprs_sfx in H
  | H : dfparams _ _ _ _ _ |- _ => apply dfparams_sfx in H
  | H : dattrs _ _ _ _ |- _ => apply dattrs_sfx in H
  | H : ddepth _ _ _ |- _ => apply ddepth_sfx in H
  | H : dpattern _ _ _ |- _ => apply dpattern_sfx in H
  | H : dhwords _ _ _ _ |- _ => apply dhwords_sfx in H
  | H : dtrail _ _ _ |- _ => apply dtrail_sfx in H
  | H : dhlines _ _ _ _ |- _ => apply dhlines_sfx in H
  end.
(** Chain the known suffix facts from the goal's right side. *)
Ltac sfx_chain :=
  solve [repeat first [eassumption | apply sfx_refl
    | match goal with |- sfx ?a ?c => match goal with
        | H : sfx ?b c |- _ => (lazymatch b with c => fail | _ => idtac end);
            apply (sfx_trans a b c); [clear H|exact H]
      end end]].

Lemma script_sfx :
  (forall w a c vs, cmd_nodes neovim w a c vs -> sfx c a) /\
  (forall w a c vs, block neovim w a c vs -> sfx c a) /\
  (forall w a c b es el, if_chain neovim w a c b es el -> sfx c a) /\
  (forall w a c b es el, try_chain neovim w a c b es el -> sfx c a).
Proof.
  apply script_mutind; intros; sfx_all; try sfx_chain.
  - constructor; auto.
Qed.

Lemma block_sfx w a c vs : block neovim w a c vs -> sfx c a.
Proof. apply script_sfx. Qed.

(** * Open blocks *)

Context (B : cursor).

(** [opens w e fs]: the text up to [e] is a script with the blocks [fs] still open, the
    innermost first, and [w] is the place of the next command. *)
Inductive opens : place -> cursor -> list frame -> Prop :=
| ob_top e body : block neovim top_place B e body ->
    opens top_place e [mkFrame FTop (getpos B) ea0 body]
| ob_function w e0 fs a b d c ea c0 l c1 c2 c3 rl da c4 at_ c5 e body :
    opens w e0 fs -> gap e0 a -> head neovim (T "parse_cmd_function") a b d c ea ->
    blank c c0 -> dlval c0 l c1 -> function_name l ->
    (forall p s, l = VIdent p s -> plain_name_ok s) ->
    blank c1 c2 -> spells (T "(") c2 c3 -> dfparams false c3 rl da c4 -> fn_params rl da ->
    dattrs (mkAttr false false false false) c4 at_ c5 ->
    block neovim (in_function w) c5 e body ->
    opens (in_function w) e (mkFrame (FFunction l rl da at_) (getpos b) ea body :: fs)
| ob_if w e0 fs a b d c ea v c1 e body :
    opens w e0 fs -> gap e0 a -> head neovim (T "parse_cmd_if") a b d c ea -> dexpr 1 c v c1 ->
    block neovim (in_block w) c1 e body ->
    opens (in_block w) e (mkFrame (FIf v [] None) (getpos b) ea body :: fs)
| ob_elseif w e0 fs a b d c ea v c1 body es c2 a' b' d' c3 ea' v' c4 e body' :
    opens w e0 fs -> gap e0 a -> head neovim (T "parse_cmd_if") a b d c ea -> dexpr 1 c v c1 ->
    if_chain neovim w c1 c2 body es None -> gap c2 a' ->
    head neovim (T "parse_cmd_elseif") a' b' d' c3 ea' -> dexpr 1 c3 v' c4 ->
    block neovim (in_block w) c4 e body' ->
    opens (in_block w) e (mkFrame (FElseif v') (getpos b') ea' body' ::
                          mkFrame (FIf v es None) (getpos b) ea body :: fs)
| ob_else w e0 fs a b d c ea v c1 body es c2 a' b' d' c3 ea' e body' :
    opens w e0 fs -> gap e0 a -> head neovim (T "parse_cmd_if") a b d c ea -> dexpr 1 c v c1 ->
    if_chain neovim w c1 c2 body es None -> gap c2 a' ->
    head neovim (T "parse_cmd_else") a' b' d' c3 ea' ->
    block neovim (in_block w) c3 e body' ->
    opens (in_block w) e (mkFrame FElse (getpos b') ea' body' ::
                          mkFrame (FIf v es None) (getpos b) ea body :: fs)
| ob_while w e0 fs a b d c ea v c1 e body :
    opens w e0 fs -> gap e0 a -> head neovim (T "parse_cmd_while") a b d c ea -> dexpr 1 c v c1 ->
    block neovim (in_loop w) c1 e body ->
    opens (in_loop w) e (mkFrame (FWhile v) (getpos b) ea body :: fs)
| ob_for w e0 fs a b d c ea l ls rs c1 d1 c2 v c3 e body :
    opens w e0 fs -> gap e0 a -> head neovim (T "parse_cmd_for") a b d c ea ->
    dlhs target c l ls rs c1 -> blank c1 d1 -> spells (T "in") d1 c2 -> dexpr 1 c2 v c3 ->
    block neovim (in_loop w) c3 e body ->
    opens (in_loop w) e (mkFrame (FFor l ls rs v) (getpos b) ea body :: fs)
| ob_try w e0 fs a b d c ea e body :
    opens w e0 fs -> gap e0 a -> head neovim (T "parse_cmd_try") a b d c ea ->
    block neovim (in_block w) c e body ->
    opens (in_block w) e (mkFrame (FTry [] None) (getpos b) ea body :: fs)
| ob_catch w e0 fs a b d c ea body cs c2 a' b' d' c3 ea' pat c4 e body' :
    opens w e0 fs -> gap e0 a -> head neovim (T "parse_cmd_try") a b d c ea ->
    try_chain neovim w c c2 body cs None -> gap c2 a' ->
    head neovim (T "parse_cmd_catch") a' b' d' c3 ea' -> dpattern c3 pat c4 ->
    block neovim (in_block w) c4 e body' ->
    opens (in_block w) e (mkFrame (FCatch pat) (getpos b') ea' body' ::
                          mkFrame (FTry cs None) (getpos b) ea body :: fs)
| ob_finally w e0 fs a b d c ea body cs c2 a' b' d' c3 ea' e body' :
    opens w e0 fs -> gap e0 a -> head neovim (T "parse_cmd_try") a b d c ea ->
    try_chain neovim w c c2 body cs None -> gap c2 a' ->
    head neovim (T "parse_cmd_finally") a' b' d' c3 ea' ->
    block neovim (in_block w) c3 e body' ->
    opens (in_block w) e (mkFrame FFinally (getpos b') ea' body' ::
                          mkFrame (FTry cs None) (getpos b) ea body :: fs).

Lemma opens_sfx w e fs : opens w e fs -> sfx e B.
Proof.
  induction 1; repeat match goal with
  | H : block _ _ _ _ _ |- _ => apply block_sfx in H
  | H : if_chain _ _ _ _ _ _ _ |- _ => apply script_sfx in H
  | H : try_chain _ _ _ _ _ _ _ |- _ => apply script_sfx in H
  end; sfx_all; sfx_chain.
Qed.

Lemma opens_cons w e fs : opens w e fs -> exists f r, fs = f :: r.
Proof. destruct 1; eauto. Qed.

(** A command read inside the innermost block extends it. *)
Lemma opens_extend w e f fs a c us : opens w e (f :: fs) -> gap e a ->
  cmd_nodes neovim w a c us -> opens w c (add_body_all us f :: fs).
Proof.
  intros H Hg Hn.
  inversion H; subst; unfold add_body_all; cbn [f_kind f_pos f_ea f_body];
    match goal with K : block _ ?w' ?x ?e' ?body, G : gap ?e' a |- _ =>
      assert (Hb : block neovim w' x c (body ++ us)) by (eapply bl_cmd; eauto); clear K H
    end.
  - constructor; auto.
  - eapply ob_function; eauto.
  - eapply ob_if; eauto.
  - eapply ob_elseif; eauto.
  - eapply ob_else; eauto.
  - eapply ob_while; eauto.
  - eapply ob_for; eauto.
  - eapply ob_try; eauto.
  - eapply ob_catch; eauto.
  - eapply ob_finally; eauto.
Qed.

Lemma opens_fun w e fs : opens w e fs -> existsb (fun x => is_function (f_kind x)) fs = pl_fun w.
Proof.
  induction 1; cbn [existsb f_kind is_function orb in_function in_block in_loop pl_fun]; auto.
Qed.

Lemma opens_loop w e fs : opens w e fs ->
  existsb (fun x => is_while (f_kind x)) fs || existsb (fun x => is_for (f_kind x)) fs = pl_loop w.
Proof.
  induction 1; cbn [existsb f_kind is_while is_for orb in_function in_block in_loop pl_loop]; auto.
  apply orb_true_r.
Qed.

Lemma opens_top w e f fs : opens w e (f :: fs) -> f_kind f = FTop ->
  w = top_place /\ fs = [] /\ f_pos f = getpos B /\ block neovim top_place B e (f_body f).
Proof. inversion 1; subst; cbn [f_kind]; try discriminate. cbn [f_pos f_body]. auto. Qed.

Lemma opens_inner w e f fs : opens w e (f :: fs) -> f_kind f <> FTop -> pl_top w = false.
Proof. inversion 1; subst; cbn [f_kind]; try reflexivity. intros K; exfalso; apply K; reflexivity. Qed.

(** The open blocks as [Fault] names them. *)
Definition block_of (k : fkind) (ks : list blockkind) : Prop :=
  match k with
  | FTop => ks = []
  | FFunction _ _ _ _ => innermost ks BkFunction
  | FIf _ _ _ | FElseif _ => innermost ks BkIf
  | FElse => innermost ks BkElse
  | FWhile _ => innermost ks BkWhile
  | FFor _ _ _ _ => innermost ks BkFor
  | FTry _ _ | FCatch _ => innermost ks BkTry
  | FFinally => innermost ks BkFinally
  end.
Lemma opens_pending w e fs : opens w e fs ->
  exists f r ks, fs = f :: r /\ pending neovim B w e ks /\ block_of (f_kind f) ks.
Proof.
  induction 1 as [e body Hb|w e0 fs a b d c ea c0 l c1 c2 c3 rl da c4 at_ c5 e body Ho IH|w e0 fs a b d c ea v c1 e body Ho IH
    |w e0 fs a b d c ea v c1 body es c2 a' b' d' c3 ea' v' c4 e body' Ho IH|w e0 fs a b d c ea v c1 body es c2 a' b' d' c3 ea' e body' Ho IH
    |w e0 fs a b d c ea v c1 e body Ho IH|w e0 fs a b d c ea l ls rs c1 d1 c2 v c3 e body Ho IH|w e0 fs a b d c ea e body Ho IH
    |w e0 fs a b d c ea body cs c2 a' b' d' c3 ea' pat c4 e body' Ho IH|w e0 fs a b d c ea body cs c2 a' b' d' c3 ea' e body' Ho IH];
    try destruct IH as [f [r [ks [_ [Hp _]]]]]; eexists _, _, _; (split; [reflexivity|]).
  - split; [econstructor; eauto|reflexivity].
  - split; [eapply pe_function; eauto|reflexivity].
  - split; [eapply pe_if; eauto; constructor; eauto|reflexivity].
  - split; [eapply pe_if; eauto; eapply ic_elseif; eauto|reflexivity].
  - split; [eapply pe_else; eauto; eapply ic_else; eauto|reflexivity].
  - split; [eapply pe_while; eauto|reflexivity].
  - split; [eapply pe_for; eauto|reflexivity].
  - split; [eapply pe_try; eauto; constructor; eauto|reflexivity].
  - split; [eapply pe_try; eauto; eapply tc_catch; eauto|reflexivity].
  - split; [eapply pe_finally; eauto; eapply tc_finally; eauto|reflexivity].
Qed.

(** * Closing the parts of :if and :try *)

(** An :if frame with its finished parts. *)
Definition if_open (w : place) (e : cursor) (f : frame) (fs : list frame) (el : option vnode) : Prop :=
  exists e0 a b d c ea v c1 body es, f = mkFrame (FIf v es el) (getpos b) ea body /\
    opens w e0 fs /\ gap e0 a /\ head neovim (T "parse_cmd_if") a b d c ea /\ dexpr 1 c v c1 /\
    if_chain neovim w c1 e body es el.
Definition try_open (w : place) (e : cursor) (f : frame) (fs : list frame) (fi : option vnode) : Prop :=
  exists e0 a b d c ea body cs, f = mkFrame (FTry cs fi) (getpos b) ea body /\
    opens w e0 fs /\ gap e0 a /\ head neovim (T "parse_cmd_try") a b d c ea /\
    try_chain neovim w c e body cs fi.

Lemma close_if_part w e st f fs : opens w e (f :: fs) -> ctx st = f :: fs ->
  is_if_part (f_kind f) = true ->
  exists w0 f0 fs0 el, if_open w0 e f0 fs0 el /\ (f_kind f <> FElse -> el = None) /\
    (if is_if (f_kind f) then Ok st else pop_part st) = Ok (with_ctx (f0 :: fs0) st).
Proof.
  intros H Hx Hk. unfold pop_part. rewrite Hx.
  inversion H; subst; cbn [f_kind] in *; try discriminate Hk; cbn [is_if f_pos f_ea f_body].
  - exists w0, (mkFrame (FIf v [] None) (getpos b) ea body), fs, None. split; [|split].
    + exists e0, a, b, d, c, ea, v, c1, body, []. repeat (split; auto). apply ic_body; auto.
    + auto.
    + destruct st as [c9 x9 k9]; unfold with_ctx; cbn [ctx cur cache] in *. rewrite <- Hx. reflexivity.
  - eexists w0, _, fs0, None. split; [|split; [auto|reflexivity]].
    exists e0, a, b, d, c, ea, v, c1, body, (es ++ [VElseif (getpos b') ea' body' v']).
    repeat (split; auto). eapply ic_elseif; eauto.
  - eexists w0, _, fs0, (Some _). split; [|split; [congruence|reflexivity]].
    exists e0, a, b, d, c, ea, v, c1, body, es.
    repeat (split; auto). eapply ic_else; eauto.
Qed.

Lemma close_try_part w e st f fs : opens w e (f :: fs) -> ctx st = f :: fs ->
  is_try_part (f_kind f) = true ->
  exists w0 f0 fs0 fi, try_open w0 e f0 fs0 fi /\ (f_kind f <> FFinally -> fi = None) /\
    (if is_try (f_kind f) then Ok st else pop_part st) = Ok (with_ctx (f0 :: fs0) st).
Proof.
  intros H Hx Hk. unfold pop_part. rewrite Hx.
  inversion H; subst; cbn [f_kind] in *; try discriminate Hk; cbn [is_try f_pos f_ea f_body].
  - exists w0, (mkFrame (FTry [] None) (getpos b) ea body), fs, None. split; [|split].
    + exists e0, a, b, d, c, ea, body, []. repeat (split; auto). apply tc_body; auto.
    + auto.
    + destruct st as [c9 x9 k9]; unfold with_ctx; cbn [ctx cur cache] in *. rewrite <- Hx. reflexivity.
  - eexists w0, _, fs0, None. split; [|split; [auto|reflexivity]].
    exists e0, a, b, d, c, ea, body, (cs ++ [VCatch (getpos b') ea' body' pat]).
    repeat (split; auto). eapply tc_catch; eauto.
  - eexists w0, _, fs0, (Some _). split; [|split; [congruence|reflexivity]].
    exists e0, a, b, d, c, ea, body, cs.
    repeat (split; auto). eapply tc_finally; eauto.
Qed.

End Open.
