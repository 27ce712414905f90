(** The positions inside a command are in source order. *)
From Coq Require Import Lia ZifyBool ZifyNat ZifyN.
From Verif Require Import Base Utf8 CharClass Reader Vnode Token Ast CmdTable Cursor Grammar TokSafe ExprSafe
  ExprParser CmdParser Export ExportSafe Script CmdBase CmdArgs CmdPieces CmdOpen ScriptExport Api ApiExpr ApiFile
  Places PlacesProof LinesProof ReaderFacts Nodes Derived Shape NodeText NodeFacts Order Rows.

(** * Rows of the internal tree *)

Definition v_dots (v : vnode) : bool := match v with VIdent _ s => text_eqb s (T "...") | _ => false end.
Definition v_named (ps : list vnode) : nat := length (filter (fun v => negb (v_dots v)) ps).
Definition orv (f : vnode -> list pos) (o : option vnode) : list pos :=
  match o with Some x => f x | None => [] end.
Fixpoint vrow (v : vnode) : list pos :=
  match v with
  | VToplevel p _ | VComment p _ | VExcmd p _ _ | VEndfunction p _ | VEndif p _ | VEndwhile p _ | VEndfor p _
  | VContinue p _ | VBreak p _ | VEndtry p _ | VEchohl p _ _ | VElse p _ _ | VTry p _ _ _ _ _
  | VCatch p _ _ _ | VFinally p _ _ | VLit _ p _ | VCurlyPart p _ | VIdent p _ => [p]
  | VFunction p _ _ nm ps ds _ _ => p :: vrow nm ++ paired (v_named ps) (map vrow ps) (map vrow ds)
  | VReturn p _ x => p :: orv vrow x
  | VDelfunction p _ x | VExcall p _ x | VIf p _ _ x _ _ _ | VElseif p _ _ x
  | VWhile p _ _ x _ | VThrow p _ x | VEval p _ x | VUn _ p x | VParen p x => p :: vrow x
  | VLet p _ _ l ls rs r | VConst p _ _ l ls rs r => p :: orv vrow l ++ flat_map vrow ls ++ orv vrow rs ++ orv vrow r
  | VFor p _ _ l ls rs r _ => p :: orv vrow l ++ flat_map vrow ls ++ orv vrow rs ++ vrow r
  | VUnlet p _ xs | VLockvar p _ _ xs | VUnlockvar p _ _ xs | VEcho _ p _ xs | VExecute p _ xs
  | VList p xs => p :: flat_map vrow xs
  | VTernary p c l r => vrow c ++ p :: vrow l ++ vrow r
  | VBin _ p l r | VSubscript p l r | VDot p l r => vrow l ++ p :: vrow r
  | VSlice p x lo hi => vrow x ++ p :: orv vrow lo ++ orv vrow hi
  | VMethod p l r => match r with VCall _ f args => vrow l ++ vrow f ++ p :: flat_map vrow args | _ => [] end
  | VCall p f args => vrow f ++ p :: flat_map vrow args
  | VDict p kvs => p :: flat_map (fun kv => match kv with (k, v) => vrow k ++ vrow v end) kvs
  | VCurlyName _ ps => flat_map vrow ps
  | VCurlyExpr _ x => vrow x
  | VLambda p ps x => p :: flat_map vrow ps ++ vrow x
  | VHeredoc _ fl _ b => flat_map vrow fl ++ flat_map vrow b
  end.

(** [run c c' ps]: the positions [ps] are those of characters between [c] and [c'], in order. *)
Inductive run : cursor -> cursor -> list pos -> Prop :=
| run_nil c c' : sfx c' c -> run c c' []
| run_cons c d d' c' ps : sfx d c -> sfx d' d -> (clen d' < clen d)%nat -> run d' c' ps -> run c c' (getpos d :: ps).

Lemma run_sfx c c' ps : run c c' ps -> sfx c' c.
Proof. induction 1; eauto using sfx_trans. Qed.
Lemma run_skip c d c' ps : sfx d c -> run d c' ps -> run c c' ps.
Proof. intros H K. inversion K; subst. constructor; eauto using sfx_trans. econstructor; [eapply sfx_trans; eauto| | |]; eauto. Qed.
Lemma run_end c d c' ps : run c d ps -> sfx c' d -> run c c' ps.
Proof. induction 1; intros K. constructor; eauto using sfx_trans. econstructor; eauto. Qed.
Lemma run_app a b c L M : run a b L -> run b c M -> run a c (L ++ M).
Proof.
  induction 1; intros K; cbn [app]. eapply run_skip; eauto. econstructor; eauto.
Qed.
Lemma run_one c d d' c' : sfx d c -> sfx d' d -> (clen d' < clen d)%nat -> sfx c' d' -> run c c' [getpos d].
Proof. intros. econstructor; eauto. constructor; auto. Qed.
Lemma run_less c c' p ps : run c c' (p :: ps) -> (clen c' < clen c)%nat.
Proof.
  inversion 1; subst. match goal with X : run _ _ _ |- _ => apply run_sfx, sfx_clen in X end.
  match goal with X : sfx d c |- _ => apply sfx_clen in X end. lia.
Qed.
Lemma token_place c t c' : token_at c t c' -> tk t <> KEof -> exists d, tp t = getpos d /\ sfx d c /\ sfx c' d /\ (clen c' < clen d)%nat.
Proof.
  intros [d [H1 [H2 H3]]] Hk. exists d. split; auto. split. apply blank_sfx; auto.
  assert (K : (exists s, s <> [] /\ spells s d c') \/ exists p, d = Cons EOL p c').
  { pose proof (token_shrinks c t c') as S. 
    assert (token_at d t c').
    { exists d. split; [|auto]. exists []. destruct H1 as [ws [_ [_ H1]]]. split; [constructor|split; [reflexivity|exact H1]]. }
    destruct (tk t) eqn:E; try congruence; try (right; destruct H3 as [H3 _]; exact H3).
    all: left; exists (tv t); split; [|tauto]; intros E0; rewrite E0 in H3; destruct H3 as [H3 _]; cbn [spells] in H3; subst.
    all: assert (token_at c' t c') as Q by assumption; apply token_shrinks in Q; [destruct Q as [_ Q]; lia|congruence]. }
  destruct K as [[s [K1 K2]]|[p ->]].
  - apply spells_shrinks in K2; auto.
  - split. apply sfx_cons, sfx_refl. cbn [clen]. lia.
Qed.
Lemma run_token c t c' : token_at c t c' -> tk t <> KEof -> run c c' [tp t].
Proof.
  intros H Hk. destruct (token_place _ _ _ H Hk) as [d [-> [H1 [H2 H3]]]]. eapply run_one; eauto. apply sfx_refl.
Qed.
Lemma run_tok k c p c' : tok_at k c p c' -> k <> KEof -> run c c' [p].
Proof. intros [t [H [E <-]]] Hk. apply run_token; auto. congruence. Qed.
Lemma run_then k c p c1 c' ps : tok_at k c p c1 -> k <> KEof -> run c1 c' ps -> run c c' (p :: ps).
Proof. intros H Hk K. apply (run_app _ c1 _ [p] ps); auto. eapply run_tok; eauto. Qed.
Lemma run_till k c d p c' ps : run c d ps -> tok_at k d p c' -> run c c' ps.
Proof. intros H K. eapply run_end; eauto. eapply tok_at_sfx; eauto. Qed.
Lemma run_over k c p d c' ps : tok_at k c p d -> run d c' ps -> run c c' ps.
Proof. intros H K. eapply run_skip; eauto. eapply tok_at_sfx; eauto. Qed.
Lemma run_text c d s c' : sfx d c -> spells s d c' -> s <> [] -> run c c' [getpos d].
Proof. intros H K E. apply spells_shrinks in K; auto. destruct K. eapply run_one; eauto. apply sfx_refl. Qed.

Lemma params_run c vs c' : dparams c vs c' -> run c c' (flat_map vrow vs).
Proof.
  induction 1; cbn [flat_map vrow app].
  - constructor. eapply tok_at_sfx; eauto.
  - eapply run_till; eauto. apply run_token; auto. congruence.
  - apply (run_app _ c1 _ [tp t]). apply run_token; auto; congruence. eapply run_over; eauto.
  - eapply run_till; eauto. apply run_token; auto. congruence.
Qed.

Lemma expr_run :
  (forall l c v c', dexpr l c v c' -> run c c' (vrow v)) /\
  (forall c v c', dopt c v c' -> run c c' (orv vrow v)) /\
  (forall k c vs c', dlist k c vs c' -> run c c' (flat_map vrow vs)) /\
  (forall l c kvs c', dentries l c kvs c' ->
     run c c' (flat_map (fun kv => match kv with (k, v) => vrow k ++ vrow v end) kvs)) /\
  (forall l c v c', dkey l c v c' -> forall p c2, tok_at KColon c' p c2 -> run c c2 (vrow v)) /\
  (forall c ps c', dname c ps c' -> run c c' (flat_map vrow ps)) /\
  (forall c ps c', dparts c ps c' -> run c c' (flat_map vrow ps)).
Proof.
  apply dexpr_mutind; intros; cbn [vrow orv flat_map app]; rewrite ?app_nil_r; auto.
  - (* ternary *) eapply run_app; eauto. eapply run_then; eauto; try discriminate.
    eapply run_app; eauto. eapply run_over; eauto.
  - (* binary *) eapply run_app; eauto. eapply run_then; eauto. 
    intros ->. match goal with X : level_op _ _ = _ |- _ => destruct l as [|[|[|[|[|[|[|]]]]]]]; discriminate X end.
  - eapply run_app; eauto. eapply run_then; eauto; discriminate.
  - eapply run_then; eauto. intros ->; discriminate.
  - eapply run_app; eauto. eapply run_then; eauto; try discriminate. eapply run_till; eauto.
  - eapply run_app; eauto. eapply run_then; eauto; try discriminate. eapply run_app; eauto. eapply run_over; eauto. eapply run_till; eauto.
  - eapply run_app; eauto. eapply run_app. eapply run_over; eauto. eapply run_then; eauto; discriminate.
  - eapply run_app; eauto. eapply run_then; eauto; discriminate.
  - eapply run_app; eauto. eapply run_then; eauto; try discriminate. eapply run_text; eauto. apply sfx_refl. 
    match goal with X : some_of _ _ |- _ => apply X end.
  - apply run_token; auto. intros E. match goal with X : simple_lit _ = _ |- _ => rewrite E in X; discriminate X end.
  - eapply run_text; eauto. apply blank_sfx; auto. apply string_nonempty; auto.
  - eapply run_then; eauto; discriminate.
  - eapply run_then; eauto. destruct lit; discriminate.
  - eapply run_then; eauto. destruct lit; discriminate. eapply run_app. apply params_run; eauto. eapply run_till; eauto.
  - eapply run_then; eauto; try discriminate. eapply run_till; eauto.
  - (* name *) cbn [flat_map vrow app] in H. eapply (run_one _ d c'); [apply blank_sfx; auto|eapply run_sfx; eauto|eapply run_less; eauto|apply sfx_refl].
  - eapply run_skip; eauto. apply blank_sfx; auto.
  - constructor. apply sfx_refl.
  - constructor. eapply tok_at_sfx; eauto.
  - eapply run_till; eauto.
  - eapply run_app; eauto. eapply run_over; eauto.
  - constructor. eapply tok_at_sfx; eauto.
  - eapply run_app; [eauto|]. eapply run_till; eauto.
  - rewrite <- app_assoc. eapply run_app; [eauto|]. eapply run_app; eauto. eapply run_over; eauto.
  - eapply run_till; eauto.
  - (* bare key *) subst d. match goal with X : spells (_ :: _) _ _ |- _ => cbn [spells] in X; destruct x; [contradiction|destruct X as [_ X]; apply spells_sfx in X] end.
    match goal with X : tok_at KColon _ _ _ |- _ => pose proof (tok_at_sfx _ _ _ _ X) as Y; apply tok_at_clen in X; [|discriminate] end.
    match goal with X : sfx c' t |- _ => pose proof (sfx_clen _ _ X) end.
    match goal with X : blank _ _ |- _ => apply blank_sfx in X end.
    apply (run_one _ t c2). apply (sfx_trans _ (Cons (R r0) p t)); auto. apply sfx_cons, sfx_refl. eauto using sfx_trans. lia. apply sfx_refl.
  - eapply (run_app _ _ _ [_]); [|eauto]. eapply run_text; eauto. apply sfx_refl.
    intros ->. match goal with X : is_sid _ |- _ => discriminate X end.
  - constructor. apply sfx_refl.
  - eapply (run_app _ _ _ [_]); [|eauto]. eapply run_text; eauto. apply sfx_refl. match goal with X : some_of _ _ |- _ => apply X end.
  - eapply run_app; [|eapply run_over; eauto]. eapply run_skip; [|eauto]. eapply spells_sfx; eauto.
Qed.

Lemma dexpr_run l c v c' : dexpr l c v c' -> run c c' (vrow v). Proof. apply expr_run. Qed.
Lemma dopt_run c v c' : dopt c v c' -> run c c' (orv vrow v). Proof. apply expr_run. Qed.
Lemma dname_run c ps c' : dname c ps c' -> run c c' (flat_map vrow ps). Proof. apply expr_run. Qed.
Lemma dlval_run c v c' : dlval c v c' -> run c c' (vrow v).
Proof.
  induction 1; cbn [vrow]; rewrite ?app_nil_r.
  - apply run_token; auto. intros E. match goal with X : simple_lit _ = _ |- _ => rewrite E in X; discriminate X end.
  - apply dname_run in H0 as K. cbn [flat_map vrow app] in K.
    eapply (run_one _ d c'); [apply blank_sfx; auto|eapply run_sfx; eauto|eapply run_less; eauto|apply sfx_refl].
  - eapply run_skip. apply blank_sfx; eauto. apply dname_run; auto.
  - eapply run_app; eauto. eapply run_then; eauto; try discriminate. eapply run_till; eauto. eapply dexpr_run; eauto.
  - eapply run_app; eauto. eapply run_then; eauto; try discriminate. eapply run_app. apply dopt_run; eauto. eapply run_over; eauto.
    eapply run_till; eauto. apply dopt_run; auto.
  - eapply run_app; eauto. eapply run_then; eauto; try discriminate. eapply run_text; eauto. apply sfx_refl. 
    match goal with X : some_of _ _ |- _ => apply X end.
Qed.
Lemma dtargets_run c vs r c' : dtargets c vs r c' -> run c c' (flat_map vrow vs ++ orv vrow r).
Proof.
  induction 1; cbn [flat_map orv app]; rewrite ?app_nil_r.
  - eapply run_till; eauto. apply dlval_run; auto.
  - rewrite <- app_assoc. eapply run_app. apply dlval_run; eauto. eapply run_over; eauto.
  - eapply run_app. apply dlval_run; eauto. eapply run_over; eauto. eapply run_till; eauto. apply dlval_run; auto.
Qed.
Lemma dlhs_run P c l ls rs c' : dlhs P c l ls rs c' -> run c c' (orv vrow l ++ flat_map vrow ls ++ orv vrow rs).
Proof.
  destruct 1; cbn [flat_map orv app]; rewrite ?app_nil_r. apply dlval_run; auto. eapply run_over; eauto. apply dtargets_run; auto.
Qed.
Lemma dexprs_run c vs c' : dexprs c vs c' -> run c c' (flat_map vrow vs).
Proof.
  induction 1; cbn [flat_map]. constructor. apply blank_sfx; auto.
  eapply run_skip. apply blank_sfx; eauto. eapply run_app; eauto. eapply dexpr_run; eauto.
Qed.
Lemma dlvals_run c vs c' : dlvals c vs c' -> run c c' (flat_map vrow vs).
Proof.
  induction 1; cbn [flat_map]. constructor. apply blank_sfx; auto.
  eapply run_skip. apply blank_sfx; eauto. eapply run_app; eauto. eapply dlval_run; eauto.
Qed.
Lemma ident_dots c t c' : token_at c t c' -> tk t = KIdent -> v_dots (VIdent (tp t) (tv t)) = false.
Proof.
  intros [d [_ [_ H]]] E. rewrite E in H. destruct H as [_ [r [w [-> [H _]]]]]. cbn [v_dots].
  destruct (text_eqb (r :: w) (T "...")) eqn:K; auto. apply text_eqb_eq in K. inversion K; subst. discriminate.
Qed.
Lemma rest_dots c t c' : token_at c t c' -> tk t = KDotDotDot -> v_dots (VIdent (tp t) (tv t)) = true.
Proof.
  intros [d [_ [_ H]]] E. rewrite E in H. destruct H as [_ H]. unfold lexeme in H. cbn [spelling] in H. cbn [v_dots]. rewrite H. reflexivity.
Qed.
Lemma v_named_cons v vs : v_named (v :: vs) = ((if v_dots v then 0 else 1) + v_named vs)%nat.
Proof. unfold v_named. cbn [filter]. destruct (v_dots v); reflexivity. Qed.
Lemma dfparams_run must c vs ds c' : dfparams must c vs ds c' ->
  (length ds <= v_named vs)%nat /\ (must = true -> length ds = v_named vs) /\
  run c c' (paired (v_named vs) (map vrow vs) (map vrow ds)).
Proof.
  induction 1; rewrite ?v_named_cons.
  - repeat split; auto. constructor. eapply tok_at_sfx; eauto.
  - rewrite (rest_dots _ _ _ H H0). repeat split; auto. cbn. eapply run_till; eauto. apply run_token; auto. congruence.
  - rewrite (ident_dots _ _ _ H H0). cbn [v_named filter length Nat.add].
    destruct H1; cbn [length map paired concat Nat.leb pred vrow]; rewrite ?app_nil_r.
    + split; [lia|]. split; [discriminate|]. eapply run_till; eauto. apply run_token; auto. congruence.
    + split; auto. split; auto. apply (run_app _ c0 _ [tp t]). apply run_token; auto; congruence.
      eapply run_over; eauto. eapply run_till; eauto. eapply dexpr_run; eauto.
  - destruct IHdfparams as [I1 [I2 I3]]. rewrite (ident_dots _ _ _ H H0). cbn [Nat.add].
    destruct H1 as [c1|must c1 q c4 v c2 Hq Hv]; cbn [length map app nonempty] in *.
    + split; [lia|]. split; [discriminate|]. cbn [map paired vrow]. 
      destruct (map vrow es) as [|e es'] eqn:E.
      * apply (run_app _ c1 _ [tp t]). apply run_token; auto; congruence. eapply run_over; eauto.
      * assert (L : Nat.leb (S (v_named vs)) (length (e :: es')) = false).
        { rewrite <- E, map_length. apply Nat.leb_gt. lia. }
        rewrite L. apply (run_app _ c1 _ [tp t]). apply run_token; auto; congruence. eapply run_over; eauto.
    + rewrite Bool.orb_true_r in I2. specialize (I2 eq_refl). split; [lia|]. split; [lia|]. cbn [paired vrow].
      assert (L : Nat.leb (S (v_named vs)) (length (vrow v :: map vrow es)) = true).
      { cbn [length]. rewrite map_length. apply Nat.leb_le. lia. }
      rewrite L. apply (run_app _ c1 _ [tp t]). apply run_token; auto; congruence. eapply run_over; eauto. eapply run_app.
      eapply dexpr_run; eauto. eapply run_over; eauto.
Qed.
Lemma dhwords_run c ws m c' : dhwords c ws m c' -> run c c' (flat_map vrow ws).
Proof.
  induction 1; cbn [flat_map vrow].
  - constructor. apply spells_sfx in H0. apply blank_sfx in H. eauto using sfx_trans.
  - eapply (run_app _ c1 _ [_]); eauto. eapply run_text; eauto. apply blank_sfx; auto. apply H1.
Qed.
Lemma dhlines_run m c ls c' : dhlines m c ls c' -> run c c' (flat_map vrow ls).
Proof.
  induction 1; cbn [flat_map vrow].
  - constructor. eapply spells_sfx; eauto.
  - apply (run_app _ c1 _ [_]); auto. apply spells_sfx in H as K. apply (run_one _ c c1). apply sfx_refl.
    eapply sfx_trans; [|exact K]. apply sfx_cons, sfx_refl. apply sfx_clen in K. cbn [clen] in K. lia. apply sfx_refl.
Qed.

(** Results of a run. *)
Definition before (B : cursor) (p q : pos) : Prop :=
  exists s t, p = getpos s /\ q = getpos t /\ sfx s B /\ sfx t s /\ (clen t < clen s)%nat.
Lemma run_in c c' ps p : run c c' ps -> In p ps -> exists s, p = getpos s /\ sfx s c /\ sfx c' s /\ (clen c' < clen s)%nat.
Proof.
  induction 1; intros K; [contradiction|]. apply run_sfx in H2 as S. destruct K as [<-|K].
  - exists d. repeat split; eauto using sfx_trans. apply sfx_clen in S. lia.
  - destruct (IHrun K) as [s [-> [K1 [K2 K3]]]]. exists s. repeat split; auto. eauto using sfx_trans.
Qed.
Lemma run_pairs B c c' ps : sfx c B -> run c c' ps -> ForallOrdPairs (before B) ps.
Proof.
  intros HB H. revert HB. induction H; intros HB; constructor; auto.
  - apply Forall_forall. intros q Hq. destruct (run_in _ _ _ _ H2 Hq) as [s [-> [K1 [K2 K3]]]]. exists d, s.
    repeat split; eauto using sfx_trans. apply sfx_clen in K1. lia.
  - apply IHrun. eauto using sfx_trans.
Qed.

(** * Commands *)

Section Rows.
Context (neovim : bool) (B : cursor).

Definition ord2 (x y : vnode) : Prop :=
  bare x \/ (vcom x /\ vher y) \/ forall p q, In p (vrow x) -> In q (vrow y) -> before B p q.
Definition led (v : vnode) : Prop := exists L, vrow v = vpos v :: L.
Definition rg2 (a c : cursor) (v : vnode) : Prop :=
  led v /\ (run a c (vrow v) \/ (bare v /\ exists s, vrow v = [getpos s] /\ sfx s a /\ sfx c s)).
Definition sq2 (a c : cursor) (L : list vnode) : Prop :=
  sfx c a /\ ForallOrdPairs ord2 L /\ Forall (rg2 a c) L.

Lemma rg2_wide a c v a' c' : rg2 a c v -> sfx a a' -> sfx c' c -> rg2 a' c' v.
Proof.
  intros [Hl [H|[H [s [E [H1 H2]]]]]] Ha Hc; (split; [exact Hl|]); [left; eapply run_skip; eauto; eapply run_end; eauto|right].
  split; auto. exists s. eauto using sfx_trans.
Qed.
Lemma sq2_nil a c : sfx c a -> sq2 a c [].
Proof. intros. split; auto. split; constructor. Qed.
Lemma sq2_join a c a1 c1 L M : sfx a B -> sq2 a c L -> sfx a1 c -> sq2 a1 c1 M -> sq2 a c1 (L ++ M).
Proof.
  intros HB [H1 [H2 H3]] Hg [K1 [K2 K3]]. split; [eauto using sfx_trans|]. split.
  - apply pairs_app; auto. intros x y Hx Hy. rewrite Forall_forall in H3, K3. specialize (H3 _ Hx). specialize (K3 _ Hy).
    apply proj2 in H3. apply proj2 in K3. destruct H3 as [H3|[H3 _]]; [|left; auto]. right; right. intros p q Hp Hq.
    destruct (run_in _ _ _ _ H3 Hp) as [s [-> [S1 [S2 S3]]]].
    assert (exists t, q = getpos t /\ sfx t a1) as [t [-> Ht]].
    { destruct K3 as [K3|[_ [t [E [K3 _]]]]]. destruct (run_in _ _ _ _ K3 Hq) as [t [-> [T1 _]]]; eauto.
      rewrite E in Hq. destruct Hq as [<-|[]]. eauto. }
    exists s, t. assert (sfx t c) as Tc by eauto using sfx_trans. repeat split; eauto using sfx_trans. apply sfx_clen in Tc. lia.
  - apply Forall_app. split.
    + eapply Forall_impl; [|exact H3]. intros v Hv. eapply rg2_wide; eauto. apply sfx_refl. eauto using sfx_trans.
    + eapply Forall_impl; [|exact K3]. intros v Hv. eapply rg2_wide; eauto. eauto using sfx_trans. apply sfx_refl.
Qed.
Lemma head_run P a b d c e c' L : head neovim P a b d c e -> run c c' L -> run a c' (getpos b :: L).
Proof.
  intros [x [H _]] K. pose proof (header_sfx _ _ _ _ _ _ _ H) as [H1 [H2 [H3 H4]]]. 
  apply (run_cons a b c); auto. eauto using sfx_trans. apply sfx_clen in H3. lia.
Qed.
Lemma sq2_one a c v : run a c (vrow v) -> led v -> sq2 a c [v].
Proof. intros H Hl. split. eapply run_sfx; eauto. split. constructor; constructor. constructor; auto. split; auto. Qed.

Ltac climb2 := repeat first [assumption | apply sfx_refl | apply sfx_cons, sfx_refl | match goal with
  | H : sfx ?x ?z |- sfx ?x _ => apply (sfx_trans _ z _ H); clear H
  | H : sfx ?t (Cons _ _ ?t) |- _ => clear H
  end].
Ltac ends2 := repeat match goal with X : sfx _ B |- _ => clear X end; match goal with |- sfx ?x ?y =>
  repeat match goal with
  | X : head _ _ _ _ _ _ _ |- _ => apply head_sfx in X; destruct X as [X _]
  | X : dexpr _ _ _ _ |- _ => apply dexpr_shrinks in X; destruct X as [X _]
  | X : dlval _ _ _ |- _ => apply dlval_shrinks in X; destruct X as [X _]
  | X : dlhs _ _ _ _ _ _ |- _ => apply dlhs_sfx in X
  | X : dlvals _ _ _ |- _ => apply dlvals_sfx in X
  | X : dexprs _ _ _ |- _ => apply dexprs_sfx in X
  | X : ddepth _ _ _ |- _ => apply ddepth_sfx in X
  | X : dpattern _ _ _ |- _ => apply dpattern_sfx in X
  | X : dattrs _ _ _ _ |- _ => apply dattrs_sfx in X
  | X : dfparams _ _ _ _ _ |- _ => apply dfparams_sfx in X
  | X : blank _ _ |- _ => apply blank_sfx in X
  | X : gap _ _ |- _ => apply gap_sfx in X
  | X : spells _ _ _ |- _ => apply spells_sfx in X
  | X : dhwords _ _ _ _ |- _ => apply dhwords_sfx in X
  | X : dtrail _ _ _ |- _ => apply dtrail_sfx in X
  | X : dhlines _ _ _ _ |- _ => apply dhlines_sfx in X
  | X : block _ _ _ _ _ |- _ => apply block_sfx in X
  | X : if_chain _ _ _ _ _ _ _ |- _ => apply (proj1 (proj2 (proj2 (script_sfx _)))) in X
  | X : try_chain _ _ _ _ _ _ _ |- _ => apply (proj2 (proj2 (proj2 (script_sfx _)))) in X
  end; climb2
  end.
Ltac inB2 a c := assert (sfx c B) by (apply (sfx_trans _ a); [ends2|assumption]).

(** A block command: its head, its parts, its end. *)
Lemma block_rows Q a v c1 c2 L a' b' d' c8 e' u c' : sfx a B -> run a c1 (vrow v) -> sq2 c1 c2 L -> gap c2 a' ->
  head neovim Q a' b' d' c8 e' -> led v -> led u -> vrow u = [getpos b'] -> sfx c' c8 -> sq2 a c' (v :: L ++ [u]).
Proof.
  intros Ha H HL Hg H2 L1 L2 E Hc'. change (v :: L ++ [u]) with ([v] ++ (L ++ [u])).
  apply run_sfx in H as S. assert (Hc1 : sfx c1 B) by eauto using sfx_trans.
  apply (sq2_join a c1 c1 c'); auto. apply sq2_one; auto. apply sfx_refl.
  apply (sq2_join c1 c2 a' c'); auto. apply gap_sfx; auto. apply sq2_one; auto. rewrite E.
  eapply head_run; eauto. constructor; auto.
Qed.
Lemma part_rows a v c1 c' L : sfx a B -> led v -> run a c1 (vrow v) -> sq2 c1 c' L -> sq2 a c' (v :: L).
Proof.
  intros Ha Hl H HL. change (v :: L) with ([v] ++ L). apply (sq2_join a c1 c1 c'); auto. apply sq2_one; auto. apply sfx_refl.
Qed.
Lemma script_rows :
  (forall w a c vs, cmd_nodes neovim w a c vs -> sfx a B -> sq2 a c (flat_map vorder vs)) /\
  (forall w a c vs, block neovim w a c vs -> sfx a B -> sq2 a c (flat_map vorder vs)) /\
  (forall w a c body es el, if_chain neovim w a c body es el -> sfx a B -> sq2 a c (flat_map vorder (body ++ es ++ vo el))) /\
  (forall w a c body es el, try_chain neovim w a c body es el -> sfx a B -> sq2 a c (flat_map vorder (body ++ es ++ vo el))).
Proof.
  apply script_mutind; intros.
  all: try (cbn [flat_map vorder app]; match goal with X : head _ _ _ _ _ _ _ |- _ =>
    apply sq2_one; [|eexists; reflexivity]; cbn [vrow orv flat_map]; eapply head_run; [exact X|]; 
    first [  eapply dlval_run; eassumption | eapply dexpr_run; eassumption | eapply dexprs_run; eassumption
          | constructor; first [apply blank_sfx; assumption | apply sfx_refl | solve [ends2]] ] end).
  - (* comment *) cbn [flat_map vorder app]. apply sq2_one; [|eexists; reflexivity]. cbn [vrow]. apply (run_one _ (Cons (R (C """")) p t) t).
    apply sfx_refl. apply sfx_cons, sfx_refl. cbn [clen]; lia. eapply spells_sfx; eauto.
  - (* modifier *) cbn [flat_map vorder app]. split. apply same_line_sfx; auto. split; [constructor; constructor|].
    constructor; [|constructor]. split; [eexists; reflexivity|]. right. split. do 3 eexists; eauto. exists c. split; auto. split; [apply same_line_sfx; auto|apply sfx_refl].
  - (* call *) cbn [flat_map vorder app]. apply sq2_one; [|eexists; reflexivity]. eapply head_run; [exact h|]. exact (dexpr_run _ _ _ _ d0).
  - (* let *) cbn [flat_map vorder app]. apply sq2_one; [|eexists; reflexivity]. cbn [vrow orv]. eapply head_run; [exact h|].
    rewrite !app_assoc. eapply run_app. rewrite <- app_assoc. eapply dlhs_run; eauto.
    eapply run_skip; [|eapply dexpr_run; eauto]. ends2.
  - (* here-document *)
    assert (K : run a c' (vrow (VLet (getpos b) e (T "=<<") l ls rs (Some (VHeredoc (getpos b) ws m body))))).
    { cbn [vrow orv]. eapply head_run; [exact h|].
      rewrite (app_assoc (flat_map vrow ls)), (app_assoc (orv vrow l)). eapply run_app. eapply dlhs_run; eauto. 
      eapply run_skip; [|eapply run_app; [eapply dhwords_run; eauto|eapply run_skip; [|eapply dhlines_run; eauto]]]; ends2. }
    destruct d3 as [| | |c3 p t s0 q u Y X]; cbn [flat_map vorder app]; try (apply sq2_one; [exact K|eexists; reflexivity]).
    set (x := VLet _ _ _ _ _ _ _) in *. split. eapply run_sfx; eauto. split.
    + constructor; [|constructor; constructor]. constructor; [|constructor]. right; left.
      split. exists p, s0; auto. do 9 eexists; reflexivity. 
    + constructor; [|constructor; auto; split; [eexists; reflexivity|left; exact K]]. split; [eexists; reflexivity|]. left. cbn [vrow]. apply (run_one _ (Cons (R (C """")) p t) t).
      ends2. apply sfx_cons, sfx_refl. cbn [clen]; lia. apply dhlines_sfx in d4. apply spells_sfx in X. apply sfx_tail in X. eauto using sfx_trans.
  - (* const *) cbn [flat_map vorder app]. apply sq2_one; [|eexists; reflexivity]. cbn [vrow orv]. eapply head_run; [exact h|].
    rewrite !app_assoc. eapply run_app. rewrite <- app_assoc. eapply dlhs_run; eauto.
    eapply run_skip; [|eapply dexpr_run; eauto]. ends2.
  - (* unlet *) cbn [flat_map vorder app]. apply sq2_one; [|eexists; reflexivity]. cbn [vrow flat_map]. eapply head_run; [exact h|].
    eapply run_app. eapply dexpr_run; eauto. eapply dlvals_run; eauto.
  - (* lockvar *) cbn [flat_map vorder app]. apply sq2_one; [|eexists; reflexivity]. cbn [vrow flat_map]. eapply head_run; [exact h|].
    eapply run_skip. eapply ddepth_sfx; eauto. eapply run_app. eapply dexpr_run; eauto. eapply dlvals_run; eauto.
  - cbn [flat_map vorder app]. apply sq2_one; [|eexists; reflexivity]. cbn [vrow flat_map]. eapply head_run; [exact h|].
    eapply run_skip. eapply ddepth_sfx; eauto. eapply run_app. eapply dexpr_run; eauto. eapply dlvals_run; eauto.
  - (* function *) cbn [flat_map]. rewrite vorder_parts. cbn [vparts vo]. rewrite app_nil_r, flat_map_app. cbn [flat_map].
    rewrite app_nil_r. cbn [vorder]. inB2 a c5.
    eapply block_rows; [assumption| |apply H; assumption|eassumption|eassumption|eexists; reflexivity|eexists; reflexivity|reflexivity|ends2].
    cbn [vrow]. eapply head_run; [exact h|]. eapply run_skip. apply blank_sfx; eauto. eapply run_app. eapply dlval_run; eauto.
    eapply run_skip; [|eapply run_end]. 2:{ eapply dfparams_run; eauto. } ends2. ends2.
  - (* if *) cbn [flat_map]. rewrite vorder_parts. cbn [vparts vo]. rewrite app_nil_r, !app_assoc, flat_map_app. cbn [flat_map].
    rewrite app_nil_r, <- app_assoc. cbn [vorder]. inB2 a c1.
    eapply block_rows; [assumption| |apply H; assumption|eassumption|eassumption|eexists; reflexivity|eexists; reflexivity|reflexivity|ends2].
    cbn [vrow]. eapply head_run; [exact h|]. eapply dexpr_run; eauto.
  - (* while *) cbn [flat_map]. rewrite vorder_parts. cbn [vparts vo]. rewrite app_nil_r, flat_map_app. cbn [flat_map].
    rewrite app_nil_r. cbn [vorder]. inB2 a c1.
    eapply block_rows; [assumption| |apply H; assumption|eassumption|eassumption|eexists; reflexivity|eexists; reflexivity|reflexivity|ends2].
    cbn [vrow]. eapply head_run; [exact h|]. eapply dexpr_run; eauto.
  - (* for *) cbn [flat_map]. rewrite vorder_parts. cbn [vparts vo]. rewrite app_nil_r, flat_map_app. cbn [flat_map].
    rewrite app_nil_r. cbn [vorder]. inB2 a c3.
    eapply block_rows; [assumption| |apply H; assumption|eassumption|eassumption|eexists; reflexivity|eexists; reflexivity|reflexivity|ends2].
    cbn [vrow]. eapply head_run; [exact h|]. rewrite !app_assoc. eapply run_app. rewrite <- app_assoc. eapply dlhs_run; eauto.
    eapply run_skip; [|eapply dexpr_run; eauto]. ends2.
  - (* try *) cbn [flat_map]. rewrite vorder_parts. cbn [vparts vo]. rewrite app_nil_r, !app_assoc, flat_map_app. cbn [flat_map].
    rewrite app_nil_r, <- app_assoc. cbn [vorder]. inB2 a c.
    eapply block_rows; [assumption| |apply H; assumption|eassumption|eassumption|eexists; reflexivity|eexists; reflexivity|reflexivity|ends2].
    cbn [vrow]. eapply head_run; [exact h|]. constructor. apply sfx_refl.
  - apply sq2_nil. apply sfx_refl.
  - rewrite flat_map_app. inB2 a a1. eapply sq2_join; [assumption|apply H; assumption| |apply H0; assumption]. ends2.
  - cbn [vo]. rewrite !app_nil_r. apply H; auto.
  - cbn [vo] in *. rewrite app_nil_r in *. rewrite app_assoc, flat_map_app. cbn [flat_map].
    rewrite app_nil_r, vorder_parts. cbn [vparts]. inB2 c a. inB2 c c3. 
    apply (sq2_join c c1 a c'); [assumption|apply H; assumption|ends2|]. 
    eapply part_rows; [assumption|eexists; reflexivity| |apply H0; assumption]. cbn [vrow]. eapply head_run; eauto. eapply dexpr_run; eauto.
  - cbn [vo] in *. rewrite app_nil_r in *. rewrite app_assoc, flat_map_app. cbn [flat_map].
    rewrite app_nil_r, vorder_parts. cbn [vparts]. inB2 c a. inB2 c c2. 
    apply (sq2_join c c1 a c'); [assumption|apply H; assumption|ends2|]. 
    eapply part_rows; [assumption|eexists; reflexivity| |apply H0; assumption]. cbn [vrow]. eapply head_run; eauto. constructor; apply sfx_refl.
  - cbn [vo]. rewrite !app_nil_r. apply H; auto.
  - cbn [vo] in *. rewrite app_nil_r in *. rewrite app_assoc, flat_map_app. cbn [flat_map].
    rewrite app_nil_r, vorder_parts. cbn [vparts]. inB2 c a. inB2 c c3. 
    apply (sq2_join c c1 a c'); [assumption|apply H; assumption|ends2|]. 
    eapply part_rows; [assumption|eexists; reflexivity| |apply H0; assumption]. cbn [vrow]. eapply head_run; eauto. constructor. ends2.
  - cbn [vo] in *. rewrite app_nil_r in *. rewrite app_assoc, flat_map_app. cbn [flat_map].
    rewrite app_nil_r, vorder_parts. cbn [vparts]. inB2 c a. inB2 c c2. 
    apply (sq2_join c c1 a c'); [assumption|apply H; assumption|ends2|]. 
    eapply part_rows; [assumption|eexists; reflexivity| |apply H0; assumption]. cbn [vrow]. eapply head_run; eauto. constructor; apply sfx_refl.
Qed.
End Rows.

(** * Transfer to the public tree *)

Inductive sub {A} : list A -> list A -> Prop :=
| sub_nil l : sub [] l
| sub_keep x l m : sub l m -> sub (x :: l) (x :: m)
| sub_skip x l m : sub l m -> sub l (x :: m).
Lemma sub_refl {A} (l : list A) : sub l l.
Proof. induction l; constructor; auto. Qed.
Lemma sub_front {A} (l a m : list A) : sub l m -> sub l (a ++ m).
Proof. induction a; cbn [app]; auto. intros. constructor; auto. Qed.
Lemma sub_app {A} (l m l' m' : list A) : sub l m -> sub l' m' -> sub (l ++ l') (m ++ m').
Proof. induction 1; intros K; cbn [app]; try (constructor; auto; fail). apply sub_front; auto. Qed.
Lemma sub_in {A} (l m : list A) x : sub l m -> In x l -> In x m.
Proof. induction 1; intros K; cbn [In] in *; intuition. Qed.
Lemma sub_pairs {A} (R : A -> A -> Prop) (l m : list A) : sub l m -> ForallOrdPairs R m -> ForallOrdPairs R l.
Proof.
  induction 1; intros K; [constructor| |]; inversion K; subst; auto. constructor; auto.
  apply Forall_forall. intros y Hy. match goal with X : Forall _ m |- _ => rewrite Forall_forall in X; apply X end. eapply sub_in; eauto.
Qed.
Lemma two_length {A B} (R : A -> B -> Prop) l m : Forall2 R l m -> length l = length m.
Proof. induction 1; cbn [length]; auto. Qed.
Lemma sub_paired {A B} (f : A -> B) k : forall ps qs ds es, Forall2 (fun p q => sub p (map f q)) ps qs ->
  Forall2 (fun p q => sub p (map f q)) ds es -> sub (paired k ps ds) (map f (paired k qs es)).
Proof.
  intros ps. revert k. induction ps as [|p t IH]; intros k qs ds es H K; inversion H; subst; cbn [paired].
  - clear -K. induction K; cbn [concat map]; [constructor|]. rewrite map_app. apply sub_app; auto.
  - inversion K; subst.
    + rewrite map_app. apply sub_app; auto.
    + assert (E : length (x :: l) = length (y0 :: l'0)) by (eapply two_length; eauto). rewrite E.
      destruct (Nat.leb k (length (y0 :: l'0))); rewrite !map_app; repeat apply sub_app; auto.
Qed.

Lemma fields_ind (P : vnode -> Prop) : (forall v, (forall u, In u (vfields v) -> P u) -> P v) -> forall v, P v.
Proof.
  intros H. fix IH 1. intros v. apply H. intros u Hu.
  assert (L : forall o, (forall x, o = Some x -> P x) -> In u (ov o) -> P u).
  { intros [x|] K Hi; cbn [ov] in Hi; [|contradiction]. destruct Hi as [<-|[]]. apply K; auto. }
  destruct v; cbn [vfields] in Hu; try contradiction; repeat rewrite ?in_app_iff in Hu; cbn [In] in Hu; rewrite ?in_app_iff in Hu;
    repeat match goal with X : _ \/ _ |- _ => destruct X as [X|X] end; try contradiction;
    try (rewrite <- Hu; apply IH).
  all: try (match type of Hu with In _ (ov ?o) => destruct o as [x|]; [destruct Hu as [<-|[]]; apply IH|contradiction] end).
  all: try (match type of Hu with In _ ?l => is_var l; revert Hu; induction l as [|x r IHr]; [contradiction|] end;
       intros [<-|Hu]; [apply IH|exact (IHr Hu)]).
  - (* method *) destruct v2; try contradiction. destruct Hu as [<-|Hu]; [apply IH|].
    revert Hu. induction rlist as [|x r IHr]; [contradiction|]. intros [<-|Hu]; [apply IH|exact (IHr Hu)].
  - (* dictionary *) revert Hu. induction value as [|[k x] r IHr]; [contradiction|]. cbn [flat_map fst snd app].
    intros [<-|[<-|Hu]]; [apply IH|apply IH|exact (IHr Hu)].
Qed.

Section Export.
Context (file : list N).
Definition subrow (v : vnode) : Prop := forall n, new_ast file v = Ok n -> sub (row n) (map (new_pos file) (vrow v)).

Lemma sub_ex v o : subrow v -> (let* y := new_ast file v in Ok (to_expr y)) = Ok o -> sub (or row o) (map (new_pos file) (vrow v)).
Proof.
  intros H K. destruct (new_ast file v) as [n| | |] eqn:E; cbn [bind] in K; try discriminate.
  unfold to_expr in K. inversion K; subst. destruct (is_expr n); cbn [or]; [auto|constructor].
Qed.
Lemma sub_oex x o : (forall v, x = Some v -> subrow v) -> 
  (match x with None => Ok None | Some v => let* y := new_ast file v in Ok (to_expr y) end) = Ok o ->
  sub (or row o) (map (new_pos file) (orv vrow x)).
Proof. destruct x as [v|]; intros H K. eapply sub_ex; eauto. inversion K; constructor. Qed.
Lemma sub_list g l r : (forall u, In u l -> subrow u) -> (forall x y, g x = Ok y -> new_ast file x = Ok y) ->
  mapM g l = Ok r -> Forall2 (fun p q => sub p (map (new_pos file) q)) (map row r) (map vrow l).
Proof.
  intros H G. revert r. induction l as [|x l IH]; intros r K; cbn [mapM] in K.
  - inversion K; constructor.
  - unbind K. inversion K; subst. constructor. apply H; [left; auto|apply G; auto]. apply IH; auto. intros; apply H; right; auto.
Qed.
Lemma sub_flat ps qs : Forall2 (fun p q => sub p (map (new_pos file) q)) (map row ps) (map vrow qs) ->
  sub (flat_map row ps) (map (new_pos file) (flat_map vrow qs)).
Proof.
  revert qs. induction ps as [|p ps IH]; intros [|q qs] H; inversion H; subst; cbn [flat_map]. constructor.
  rewrite map_app. apply sub_app; auto.
Qed.
Lemma exs_elem x y : (let* z := new_ast file x in expr_elem z) = Ok y -> new_ast file x = Ok y.
Proof. intros H. unbind H. unfold expr_elem in H. destruct (is_expr a); inversion H; subst; auto. Qed.
Lemma cast_elem f x y : (let* z := new_ast file x in assert_node f z) = Ok y -> new_ast file x = Ok y.
Proof. intros H. unbind H. unfold assert_node in H. destruct (f a); inversion H; subst; auto. Qed.
Lemma dots_same x y : new_ast file x = Ok y -> is_dots y = v_dots x.
Proof.
  intros H. destruct x; cbn [new_ast] in H;
    try match type of H with (match ?x with _ => _ end) = _ => destruct x eqn:?; try discriminate end;
    unbind H; inversion H; subst; reflexivity.
Qed.
Lemma named_same f l r : mapM (fun x => let* y := new_ast file x in assert_node f y) l = Ok r -> named_params r = v_named l.
Proof.
  unfold named_params, v_named. revert r. induction l as [|x l IH]; intros r K; cbn [mapM] in K.
  - inversion K; reflexivity.
  - unbind K. apply cast_elem in E. apply dots_same in E. inversion K; subst. cbn [filter]. rewrite E.
    specialize (IH _ eq_refl). destruct (v_dots x); cbn [negb length]; rewrite IH; auto.
Qed.

Lemma row_from v : subrow v.
Proof.
  induction v as [v IH] using fields_ind. intros n H.
  assert (L : forall l r, (forall u, In u l -> In u (vfields v)) ->
    mapM (fun x => let* y := new_ast file x in expr_elem y) l = Ok r -> sub (flat_map row r) (map (new_pos file) (flat_map vrow l))).
  { intros l r Hl K. apply sub_flat. eapply sub_list; [|apply exs_elem|exact K]. auto. }
  assert (M : forall f l r, (forall u, In u l -> In u (vfields v)) ->
    mapM (fun x => let* y := new_ast file x in assert_node f y) l = Ok r -> sub (flat_map row r) (map (new_pos file) (flat_map vrow l))).
  { intros f l r Hl K. apply sub_flat. eapply sub_list; [|apply cast_elem|exact K]. auto. }
  assert (X : forall u o, In u (vfields v) -> (let* y := new_ast file u in Ok (to_expr y)) = Ok o -> 
    sub (or row o) (map (new_pos file) (vrow u))).
  { intros u o Hu K. eapply sub_ex; eauto. }
  assert (O : forall x o, (forall u, In u (ov x) -> In u (vfields v)) -> 
    (match x with None => Ok None | Some v => let* y := new_ast file v in Ok (to_expr y) end) = Ok o ->
    sub (or row o) (map (new_pos file) (orv vrow x))).
  { intros x o Hu K. eapply sub_oex; eauto. intros u ->. apply IH, Hu. left; auto. }
  assert (Y : forall f u y, In u (vfields v) -> (let* z := new_ast file u in assert_node f z) = Ok y -> sub (row y) (map (new_pos file) (vrow u))).
  { intros f u y Hu K. apply cast_elem in K. apply IH; auto. }
  destruct v; cbn [new_ast] in H;
    try match type of H with (match ?x with _ => _ end) = _ => destruct x eqn:?; try discriminate end;
    unbind H; inversion H; subst n; cbn [row vrow map]; rewrite ?map_app; cbn [map];
    repeat match goal with
    | |- sub (_ ++ _) (_ ++ _) => apply sub_app
    | |- sub (_ :: _) (_ :: _) => constructor
    | |- sub [] _ => constructor
    end.
  all: try (first [eapply L; [|eassumption] | eapply M; [|eassumption] | eapply X; [|eassumption] | eapply O; [|eassumption] | eapply Y; [|eassumption]];
    cbn [vfields]; intros; repeat rewrite ?in_app_iff; cbn [In]; rewrite ?in_app_iff; cbn [In]; auto 12; fail).
  - rewrite map_app. apply sub_app; eapply X; eauto; cbn; auto.
  - rewrite map_app. apply sub_app; eapply O; eauto; cbn [vfields In]; intros; rewrite in_app_iff; auto.
  - (* dictionary *) clear L M O Y H. cbn [vfields] in *. revert a E. induction value as [|[k x] l IHl]; intros a E; cbn [mapM] in E.
    + inversion E; constructor.
    + unbind E. inversion E; subst. unbind E0. inversion E0; subst. cbn [flat_map]. rewrite !map_app. apply sub_app; [apply sub_app|].
      * eapply X; eauto. left; auto.
      * eapply X; eauto. right; left; auto.
      * apply IHl; auto. intros u Hu; apply IH. right; right; auto. intros u o Hu; apply X. right; right; auto.
  - (* function *) rewrite (named_same _ _ _ E1). apply sub_paired.
    + eapply sub_list; [|apply cast_elem|eassumption]. intros u Hu. apply IH. cbn [vfields]. rewrite in_app_iff. cbn [In]. rewrite !in_app_iff. auto.
    + eapply sub_list; [|apply exs_elem|eassumption]. intros u Hu. apply IH. cbn [vfields]. rewrite in_app_iff. cbn [In]. rewrite !in_app_iff. auto.
Qed.
End Export.

(** * Results *)

Lemma pairs_map {A B} (R : A -> A -> Prop) (S : B -> B -> Prop) (f : A -> B) l :
  (forall x y, R x y -> S (f x) (f y)) -> ForallOrdPairs R l -> ForallOrdPairs S (map f l).
Proof.
  intros H. induction 1; cbn [map]; constructor; auto. apply Forall_map. eapply Forall_impl; [|eassumption]. auto.
Qed.
Lemma before_earlier file B p q : sorted B -> before B p q -> earlier (new_pos file p) (new_pos file q).
Proof. intros Hs [s [t [-> [-> [H1 [H2 H3]]]]]]. apply (later _ _ _ Hs H1 H2 H3). Qed.

Lemma derived_rows neovim B lp fn v : derived neovim B lp fn v -> ForallOrdPairs (before B) (vrow v).
Proof.
  assert (S1 : forall p, ForallOrdPairs (before B) [p]) by (intros; repeat constructor).
  intros H. destruct H; cbn [vrow]; auto.
  - eapply run_pairs; [|eapply dexpr_run; eauto]; auto.
  - eapply run_pairs; [|eapply dlval_run; eauto]; auto.
  - eapply run_pairs; [|eapply dexpr_run; eauto]; auto.
  - apply (run_pairs B c c'); auto. eapply run_app. eapply dhwords_run; eauto. eapply run_skip; [|eapply dhlines_run; eauto].
    eapply dtrail_sfx; eauto.
  - pose proof (proj1 (script_rows neovim B) _ _ _ _ H H1) as [_ [_ K]]. rewrite Forall_forall in K.
    specialize (K v). destruct K as [_ [K|[_ [s [-> _]]]]]; auto.
    { apply in_flat_map. exists v. split; auto. destruct v; left; reflexivity. }
    eapply run_pairs; eauto.
  - cbn [In] in H1. repeat destruct H1 as [H1|H1]; inversion H1; subst; cbn [vrow]; auto.
  - apply (run_pairs B a c1); auto. eapply head_run; eauto. eapply dexpr_run; eauto.
Qed.

Lemma node_row bs fails file root n : accepted bs fails file root -> within root n -> ForallOrdPairs earlier (row n).
Proof.
  intros HA Hn. destruct (accepted_within _ _ _ _ _ HA Hn) as [nv [lp [fn [v [H1 H2]]]]].
  destruct (seen_exists bs) as [ts Hts].
  eapply sub_pairs. apply row_from; eauto. eapply pairs_map; [|eapply derived_rows; eauto].
  intros x y. apply before_earlier. rewrite (seen_open _ _ _ Hts). apply reader_sorted.
Qed.

(** Two commands. *)
Lemma ord2_order file B x y n m : sorted B -> Rv B x y -> ord2 B x y -> led y -> ForallOrdPairs (before B) (vrow y) ->
  new_ast file x = Ok n -> new_ast file y = Ok m -> ~ is_comment n -> ~ is_comment m ->
  forall p q, In p (row n) -> In q (row m) -> earlier p q.
Proof.
  intros Hs HR H [L Hl] Hy Hn Hm Cn Cm p q Hp Hq.
  pose proof (sub_in _ _ _ (row_from _ _ _ Hn) Hp) as Ip. pose proof (sub_in _ _ _ (row_from _ _ _ Hm) Hq) as Iq.
  apply in_map_iff in Ip, Iq. destruct Ip as [p' [<- Ip]]. destruct Iq as [q' [<- Iq]].
  destruct H as [H|[[H _]|H]].
  - assert (E : vrow x = [vpos x]) by (destruct H as [? [? [? [-> _]]]]; reflexivity). rewrite E in Ip. destruct Ip as [<-|[]].
    assert (K : earlier (new_pos file (vpos x)) (new_pos file (vpos y))).
    { pose proof (Rv_order _ _ _ _ _ _ Hs HR Hn Hm) as [K|[[_ [K _]]|[K _]]]; try contradiction.
      rewrite (proj1 (new_ast_ea _ _ _ Hn)), (proj1 (new_ast_ea _ _ _ Hm)) in K. exact K. }
    rewrite Hl in Iq, Hy. destruct Iq as [<-|Iq]; auto. inversion Hy; subst.
    match goal with X : Forall _ L |- _ => rewrite Forall_forall in X; specialize (X _ Iq); apply (before_earlier file _ _ _ Hs) in X end.
    unfold earlier in *. lia.
  - destruct (vcom_node _ _ _ Hn H) as [? [? ->]]. exfalso. apply Cn. do 2 eexists; eauto.
  - apply (before_earlier _ B); auto.
Qed.

Lemma pairs_and {A} (R S : A -> A -> Prop) (P : A -> Prop) l : ForallOrdPairs R l -> ForallOrdPairs S l -> Forall P l ->
  ForallOrdPairs (fun x y => R x y /\ S x y /\ P y) l.
Proof.
  induction 1 as [|x l H1 H2 IH]; intros K F; inversion K; inversion F; subst; constructor; auto.
  rewrite Forall_forall in *. intros y Hy. auto.
Qed.
Lemma pairs_filter {A} (R : A -> A -> Prop) f l : ForallOrdPairs R l -> ForallOrdPairs R (filter f l).
Proof.
  induction 1; cbn [filter]; [constructor|]. destruct (f a); auto. constructor; auto.
  rewrite Forall_forall in *. intros y Hy. apply filter_In in Hy. apply H, Hy.
Qed.
Lemma pairs_flat {A B} (R : B -> B -> Prop) (f : A -> list B) l :
  Forall (fun x => ForallOrdPairs R (f x)) l ->
  ForallOrdPairs (fun x y => forall p q, In p (f x) -> In q (f y) -> R p q) l -> ForallOrdPairs R (flat_map f l).
Proof.
  induction 1; intros K; inversion K; subst; cbn [flat_map]; [constructor|]. apply pairs_app; auto.
  intros p q Hp Hq. apply in_flat_map in Hq. destruct Hq as [y [Hy Hq]]. rewrite Forall_forall in *.
  match goal with X : forall x, In x l -> _ |- _ => eapply X; eauto end.
Qed.
Lemma pairs_weaken {A} (R S : A -> A -> Prop) (P : A -> Prop) l : (forall x y, P x -> P y -> R x y -> S x y) ->
  Forall P l -> ForallOrdPairs R l -> ForallOrdPairs S l.
Proof.
  intros H. induction 1; intros K; inversion K; subst; constructor; auto. rewrite Forall_forall in *. auto.
Qed.
Lemma within_trans a b c : within a b -> within b c -> within a c.
Proof. intros H K. induction K; auto. econstructor; eauto. Qed.
Lemma order_within : forall k n, In n (order k) -> within k n.
Proof.
  fix IH 1. intros k n Hn.
  assert (F : forall x, In x (fields k) -> within x n -> within k n).
  { intros x Hx Hw. eapply within_trans; [|exact Hw]. econstructor; [constructor|auto]. }
  destruct k; cbn [order] in Hn; destruct Hn as [<-|Hn]; try apply wi_root; try contradiction;
    rewrite ?in_app_iff in *; repeat match goal with X : _ \/ _ |- _ => destruct X as [X|X] end.
  all: try (match type of Hn with In _ (oo order ?o) => 
    destruct o as [x|]; [|contradiction]; cbn [oo] in Hn; apply (F x); [|exact (IH x n Hn)];
      cbn [fields on]; rewrite ?in_app_iff; cbn [In]; tauto end).
  all: match type of Hn with In _ (flat_map order ?l) => 
    assert (G : exists x, In x l /\ within x n); [clear F; induction l as [|x l IHl]; cbn [flat_map] in *; [contradiction|]; apply in_app_iff in Hn;
    destruct Hn as [Hn|Hn]; [exists x; split; [left; reflexivity|exact (IH x n Hn)]|destruct (IHl Hn) as [y [Y1 Y2]]; exists y; split; [right|]; assumption]|];
    destruct G as [x [G1 G2]]; apply (F x); [cbn [fields]; rewrite ?in_app_iff; tauto|exact G2] end.
Qed.

Lemma file_rows bs fails file opt p body : ParseFile (mkSource bs fails) file opt = Returned (NFile p body) ->
  ForallOrdPairs earlier (flat_map row (flat_map commands body)).
Proof.
  intros H.
  assert (HA : accepted bs fails file (NFile p body)) by (left; eauto).
  assert (E : forall l, flat_map commands l = filter (fun x => match x with NComment _ _ => false | _ => true end) (flat_map order l)).
  { unfold commands. induction l; cbn [flat_map]; auto. rewrite filter_app, IHl. auto. }
  rewrite E. apply pairs_flat.
  - apply Forall_forall. intros n Hn. apply filter_In in Hn. destruct Hn as [Hn _]. eapply node_row; eauto.
    apply order_within. cbn [order]. right. auto.
  - pose proof (ParseFile_cases (mkSource bs fails) file opt) as
      [[v [p' [body' [H1 [H2 H3]]]]]|[[msg [s [_ H3]]]|[k [_ H3]]]]; rewrite H3 in H; inversion H; subst. clear H H3.
    destruct H1 as [vs [c1 [c' [-> [H1 _]]]]].
    pose proof (proj1 (proj2 (script_order (neovim_of opt) (open_source (mkSource bs fails)))) _ _ _ _ H1 (sfx_refl _)) as [_ [K1 _]].
    pose proof (proj1 (proj2 (script_rows (neovim_of opt) (open_source (mkSource bs fails)))) _ _ _ _ H1 (sfx_refl _)) as [_ [K2 K3]].
    pose proof (order_from _ _ _ H2) as F. cbn [vorder order] in F. inversion F; subst.
    destruct (seen_exists bs) as [ts Hts].
    assert (Hs : sorted (open_source (mkSource bs fails))) by (rewrite (seen_open _ _ _ Hts); apply reader_sorted).
    pose proof (pairs_and _ _ _ _ K1 K2 K3) as K. clear K1 K2 K3.
    apply (pairs_weaken (fun n m => ~ is_comment n -> ~ is_comment m -> forall p q, In p (row n) -> In q (row m) -> earlier p q) _
             (fun n => ~ is_comment n)); auto.
    { apply Forall_forall. intros n Hn [q [s ->]]. apply filter_In in Hn. destruct Hn; discriminate. }
    apply pairs_filter. eapply pairs_two; [|eassumption|exact K].
    intros x y n m [R1 [R2 [L R3]]] Hn Hm Cn Cm. cbv beta in Hn, Hm. eapply ord2_order; eauto.
    destruct R3 as [R3|[_ [s [-> _]]]]; [|repeat constructor]. eapply run_pairs; [apply sfx_refl|eauto].
Qed.

(** Every node has its positions in some row of the file. *)
Lemma row_listed k n : typed k -> In n (fields k) -> listed n \/ incl (row n) (row k).
Proof.
  intros Ht Hn.
  assert (FM : forall l, In n l -> incl (row n) (flat_map row l)).
  { intros l Hi p Hp. apply in_flat_map. eauto. }
  assert (OO : forall o, In n (on o) -> incl (row n) (or row o)).
  { intros [x|] Hi; cbn in *; [|contradiction]. destruct Hi as [->|[]]. apply incl_refl. }
  assert (PD : forall ps ds c, In n ps \/ In n ds -> incl (row n) (paired c (map row ps) (map row ds))).
  { induction ps as [|x ps IH]; intros ds c Hi; cbn [map paired].
    - destruct Hi as [[]|Hi]. intros p Hp. apply in_concat. exists (row n). split; auto. apply in_map; auto.
    - destruct ds as [|d ds]; cbn [map].
      + destruct Hi as [[->|Hi]|[]]. apply incl_appl, incl_refl. apply incl_appr. apply (IH []); auto.
      + destruct (Nat.leb _ _).
        * destruct Hi as [[->|Hi]|[->|Hi]]. apply incl_appl, incl_refl. do 2 apply incl_appr; apply IH; auto.
          apply incl_appr, incl_appl, incl_refl. do 2 apply incl_appr; apply IH; auto.
        * destruct Hi as [[->|Hi]|Hi]. apply incl_appl, incl_refl. apply incl_appr; apply (IH (d :: ds)); auto.
          apply incl_appr; apply (IH (d :: ds)); auto. }
  assert (ST : forall l, stmts l -> In n l -> listed n).
  { intros l Hl Hi. unfold stmts in Hl. rewrite Forall_forall in Hl. specialize (Hl _ Hi). unfold listed.
    destruct n; try discriminate Hl; try (left; discriminate). right; left. unfold is_comment. eauto. }
  destruct k; cbn [fields] in Hn; cbn [typed] in Ht; cbn [row]; try contradiction; rewrite ?in_app_iff in *;
    repeat match goal with X : _ /\ _ |- _ => destruct X | X : _ \/ _ |- _ => destruct X end.
  all: try solve [left; eapply ST; eauto].
  all: try solve [right; repeat first [assumption | apply FM; assumption | apply OO; assumption | apply PD; solve [auto]
    | apply incl_tl | match goal with |- incl _ (?a ++ ?b) => 
        first [solve [apply incl_appl; first [apply FM; assumption | apply OO; assumption]] | apply incl_appr] end ]].
  all: repeat match goal with
    | X : exists _ _, ?o = Some _ |- _ => destruct X as [? [? ->]]
    | X : exists _ _ _, ?o = Some _ |- _ => destruct X as [? [? [? ->]]]
    end.
  all: try match goal with
    | Y : In _ (on (Some _)) |- _ => destruct Y as [<-|[]]; left; left; cbn [nea]; discriminate
    | Y : In _ (on None) |- _ => contradiction Y
    | X : Forall _ ?l, Y : In _ ?l |- _ => rewrite Forall_forall in X; specialize (X _ Y); destruct X as [? [? [? [? ->]]]]; left; left; cbn [nea]; discriminate
    end.
  all: try (subst; contradiction).
  - (* dictionary *) right. apply incl_tl. apply in_flat_map in Hn. destruct Hn as [[a b] [K1 K2]]. intros q Hq.
    apply in_flat_map. exists (a, b). split; auto. cbn [fst snd] in K2. apply in_app_iff in K2. apply in_app_iff.
    destruct K2 as [K2|K2]; [left|right]; eapply OO; eauto.
Qed.
Lemma row_own n : outside_row n = false -> In (npos n) (row n).
Proof.
  destruct n; intros H; try discriminate H; cbn [npos row]; rewrite ?in_app_iff; cbn [In]; rewrite ?in_app_iff; auto.
Qed.
Lemma file_covered bs fails file opt p body n : ParseFile (mkSource bs fails) file opt = Returned (NFile p body) ->
  within (NFile p body) n -> n <> NFile p body -> ~ is_comment n ->
  incl (row n) (flat_map row (flat_map commands body)).
Proof.
  intros H Hn. assert (HA : accepted bs fails file (NFile p body)) by (left; eauto).
  assert (Ht : forall k, within (NFile p body) k -> typed k) by (intros; eapply node_typed; eauto).
  assert (G : forall n, within (NFile p body) n -> listed n -> n <> NFile p body -> ~ is_comment n ->
    incl (row n) (flat_map row (flat_map commands body))).
  { intros k Hk Hl Hne Hc q Hq. pose proof (within_order _ Ht _ Hk Hl) as K. cbn [order] in K.
    destruct K as [<-|K]; [congruence|]. apply in_flat_map. exists k. split; auto.
    apply in_flat_map in K. destruct K as [m [K1 K2]]. apply in_flat_map. exists m. split; auto.
    unfold commands. apply filter_In. split; auto. destruct k; auto. exfalso; apply Hc. do 2 eexists; reflexivity. }
  induction Hn as [|m k Hm IH Hf]; intros Hne Hc; [congruence|].
  assert (Hw : within (NFile p body) k) by (econstructor; eauto).
  destruct (row_listed m k) as [K|K]; auto.
  destruct m; cbn [fields] in Hf; try contradiction; try (eapply incl_tran; [exact K|]; apply IH; [discriminate|intros [? [? E]]; discriminate]).
  (* the file itself: its fields are statements *)
  pose proof (Ht _ Hm) as Hb. cbn [typed] in Hb. unfold stmts in Hb. rewrite Forall_forall in Hb. specialize (Hb _ Hf).
  apply G; auto. unfold listed. destruct k; try discriminate Hb; try (left; discriminate). right; left; do 2 eexists; reflexivity.
Qed.

(** The positions that are not in the rows. *)
Lemma dexpr_curly l c v c' : dexpr l c v c' -> forall p ps, v = VCurlyName p ps -> exists d, p = getpos d /\ sfx d c /\ dname d ps c'.
Proof.
  induction 1; intros p0 ps0 E; try discriminate E; eauto.
  inversion E; subst. exists d. split; auto. split; auto. apply blank_sfx; auto.
Qed.
Lemma dlval_curly c v c' : dlval c v c' -> forall p ps, v = VCurlyName p ps -> exists d, p = getpos d /\ sfx d c /\ dname d ps c'.
Proof.
  induction 1; intros p0 ps0 E; try discriminate E; eauto.
  inversion E; subst. exists d. split; auto. split; auto. apply blank_sfx; auto.
Qed.
Lemma sfx_not_later B s d file : sorted B -> sfx d B -> sfx s d ->
  new_pos file (getpos d) = new_pos file (getpos s) \/ earlier (new_pos file (getpos d)) (new_pos file (getpos s)).
Proof.
  intros Hs Hd H. destruct (Nat.eq_dec (clen s) (clen d)) as [E|E].
  - left. assert (s = d) by (apply sfx_same; auto). subst; auto.
  - right. apply (later _ _ _ Hs Hd H). apply sfx_clen in H. lia.
Qed.
Lemma node_outside bs fails file root n p : accepted bs fails file root -> within root n ->
  (exists ps, n = NCurlyName p ps) \/ (exists x, n = NCurlyExpr p x) ->
  forall q, In q (row n) -> p = q \/ earlier p q.
Proof.
  intros HA Hn Hk q Hq. destruct (accepted_within _ _ _ _ _ HA Hn) as [nv [lp [fn [v [H1 H2]]]]].
  destruct (seen_exists bs) as [ts Hts].
  assert (Hs : sorted (open_source (mkSource bs fails))) by (rewrite (seen_open _ _ _ Hts); apply reader_sorted).
  assert (Ep : p = new_pos file (vpos v)).
  { rewrite <- (proj1 (new_ast_ea _ _ _ H2)). destruct Hk as [[? ->]|[? ->]]; reflexivity. }
  pose proof (sub_in _ _ _ (row_from _ _ _ H2) Hq) as I. apply in_map_iff in I. destruct I as [q' [<- I]]. subst p.
  assert (G : exists d s, vpos v = getpos d /\ q' = getpos s /\ sfx d (open_source (mkSource bs fails)) /\ sfx s d).
  2:{ destruct G as [d [s [-> [-> [G1 G2]]]]]. eapply sfx_not_later; eauto. }
  assert (V : (exists p ps, v = VCurlyName p ps) \/ (exists p x, v = VCurlyExpr p x)).
  { destruct v; cbn [new_ast] in H2;
      try match type of H2 with (match ?x with _ => _ end) = _ => destruct x eqn:?; try discriminate end;
      unbind H2; inversion H2; subst; destruct Hk as [[? E']|[? E']]; try discriminate E'; eauto. }
  destruct V as [[p [ps ->]]|[p [x ->]]]; cbn [vpos vrow] in *.
  - assert (D : exists d c', p = getpos d /\ sfx d (open_source (mkSource bs fails)) /\ dname d ps c').
    { inversion H1; subst.
      - destruct (dexpr_curly _ _ _ _ H _ _ eq_refl) as [d [-> [D1 D2]]]. exists d, c'. eauto using sfx_trans.
      - destruct (dlval_curly _ _ _ H _ _ eq_refl) as [d [-> [D1 D2]]]. exists d, c'. eauto using sfx_trans.
      - exfalso. inversion H; subst; cbn [In] in *; try rewrite in_app_iff in *; 
          repeat match goal with X : _ \/ _ |- _ => destruct X end; try discriminate; try contradiction.
        all: try match goal with X : dtrail _ _ _, Y : In _ _ |- _ => destruct X; cbn [In] in Y; intuition discriminate end.
      - cbn [In] in *. repeat match goal with X : _ \/ _ |- _ => destruct X as [X|X] end; try contradiction;
          match goal with X : (_, _) = (_, ?k) |- _ => inversion X; subst; discriminate end. }
    destruct D as [d [c' [-> [D1 D2]]]]. apply dname_run in D2. destruct (run_in _ _ _ _ D2 I) as [s [-> [S1 _]]]. eauto 6.
  - inversion H1; subst.
    + exfalso. remember (VCurlyExpr p x) as u. induction H; try discriminate Hequ; auto.
    + exfalso. inversion H.
    + match goal with X : dexpr _ _ _ _ |- _ => apply dexpr_run in X; destruct (run_in _ _ _ _ X I) as [s [-> [S1 _]]] end. eauto 6.
    + exfalso. inversion H; subst; cbn [In] in *; try rewrite in_app_iff in *; 
          repeat match goal with X : _ \/ _ |- _ => destruct X end; try discriminate; try contradiction.
        all: try match goal with X : dtrail _ _ _, Y : In _ _ |- _ => destruct X; cbn [In] in Y; intuition discriminate end.
    + exfalso. cbn [In] in *. repeat match goal with X : _ \/ _ |- _ => destruct X as [X|X] end; try contradiction;
          match goal with X : (_, _) = (_, ?k) |- _ => inversion X; subst; discriminate end.
Qed.
Lemma dexpr_heredoc l c v c' : dexpr l c v c' -> forall p ws m b, v <> VHeredoc p ws m b.
Proof. induction 1; intros; try discriminate; auto. Qed.
Lemma dexpr_not_let l c v c' : dexpr l c v c' -> forall p e o x xs r y, v <> VLet p e o x xs r y /\ v <> VConst p e o x xs r y.
Proof. induction 1; intros; try (split; discriminate); auto. Qed.
Lemma node_heredoc_pos bs fails file root p e o l ls rs q fl m b : accepted bs fails file root ->
  within root (NLet p e o l ls rs (Some (NHeredoc q fl m b))) -> q = p.
Proof.
  intros HA Hn. destruct (accepted_within _ _ _ _ _ HA Hn) as [nv [lp [fn [v [H1 H2]]]]].
  assert (V : exists pv ev ov lv lsv rsv qv flv mv bv, 
    (v = VLet pv ev ov lv lsv rsv (Some (VHeredoc qv flv mv bv)) \/ v = VConst pv ev ov lv lsv rsv (Some (VHeredoc qv flv mv bv))) /\
    p = new_pos file pv /\ q = new_pos file qv).
  { destruct v; cbn [new_ast] in H2;
      try match type of H2 with (match ?x with _ => _ end) = _ => destruct x eqn:?; try discriminate end;
      unbind H2; inversion H2; subst.
    all: destruct right as [u|]; [|discriminate]; destruct (new_ast file u) as [k| | |] eqn:Eu; cbn [bind] in *; try discriminate.
    all: match goal with X : Ok (to_expr ?z) = Ok _ |- _ => unfold to_expr in X; destruct (is_expr z); inversion X; subst end.
    all: destruct u; cbn [new_ast] in Eu;
      try match type of Eu with (match ?x with _ => _ end) = _ => destruct x eqn:?; try discriminate end;
      unbind Eu; inversion Eu; subst.
    all: do 10 eexists; split; [first [left; reflexivity | right; reflexivity]|]; split; reflexivity. }
  destruct V as [pv [ev [ow [lv [lsv [rsv [qv [flv [mv [bv [V [-> ->]]]]]]]]]]]].
  assert (qv = pv); [|congruence].
  inversion H1; subst; try (destruct V as [V|V]; discriminate V).
  - exfalso. destruct (dexpr_not_let _ _ _ _ H pv ev ow lv lsv rsv (Some (VHeredoc qv flv mv bv))). tauto.
  - exfalso. destruct V as [->| ->]; inversion H.
  - inversion H; subst; cbn [In] in *; try rewrite in_app_iff in *; cbn [In] in *;
      repeat match goal with X : _ \/ _ |- _ => destruct X end; try contradiction; subst; try discriminate;
      try match goal with X : VLet _ _ _ _ _ _ _ = VLet _ _ _ _ _ _ _ |- _ => inversion X; subst | X : VConst _ _ _ _ _ _ _ = VConst _ _ _ _ _ _ _ |- _ => inversion X; subst end;
      try reflexivity;
      try (exfalso; eapply dexpr_heredoc; eauto; fail).
    all: match goal with X : dtrail _ _ _, Y : In _ _ |- _ => destruct X; cbn [In] in Y; exfalso; intuition discriminate end.
  - exfalso. cbn [In] in *. repeat match goal with X : _ \/ _ |- _ => destruct X as [X|X] end; try contradiction;
      match goal with X : (_, _) = (_, ?k) |- _ => inversion X; subst; discriminate end.
Qed.
