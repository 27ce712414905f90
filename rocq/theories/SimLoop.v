(** Two runs over related texts, concluded: the whole text. *)
From Coq Require Import Lia ZifyBool ZifyNat ZifyN.
From Verif Require Import Base CharClass Reader Vnode Tokenizer ExprParser CmdTable CmdParser
  Cursor Grammar TokSafe ExprSafe Script CmdBase CmdArgs HeadProof CmdPieces CmdOpen CmdSafe CmdLoop
  Sim SimCmd SimArgs SimRun.

(** * A :finish of the file itself ends the text *)

Lemma nodes_fin neovim w a c us : cmd_nodes neovim w a c us -> pl_top w = true -> existsb fin_node us = true -> is_eof c = true.
Proof.
  intros H Hw Hf. destruct H; cbn [existsb fin_node orb] in Hf; try discriminate Hf; auto.
  - rewrite orb_false_r in Hf. replace (ea_cmd e) with (@None cmd) in Hf by auto. discriminate.
  - exfalso. destruct H0 as [x [Hh Hp]]. rewrite (h_x _ _ _ _ _ _ _ Hh), Hp, orb_false_r in Hf. apply text_eqb_eq in Hf. subst P.
    assert (G : mem_text (T "parse_cmd_finish") excmd_parsers = false) by (vm_compute; reflexivity).
    apply mem_text_In in H. congruence.
  - congruence.
  - exfalso. rewrite existsb_app in Hf. apply orb_true_iff in Hf. destruct Hf as [Hf|Hf]; [|discriminate].
    match goal with X : dtrail _ _ _ |- _ => destruct X; discriminate end.
Qed.
Lemma sfx_eof c d : sfx c d -> is_eof d = true -> is_eof c = true.
Proof. intros H. induction H; cbn; auto. discriminate. Qed.
Lemma block_fin neovim w a c vs : block neovim w a c vs -> pl_top w = true -> existsb fin_node vs = true -> is_eof c = true.
Proof.
  intros H Hw. induction H as [|w a c1 vs a1 c us H IH Hg Hn]; [discriminate|]. rewrite existsb_app. intros Hf.
  apply orb_true_iff in Hf. destruct Hf as [Hf|Hf]; [|eapply nodes_fin; eauto].
  specialize (IH Hw Hf). apply gap_sfx in Hg. apply (proj1 (script_sfx neovim)) in Hn.
  eapply sfx_eof; [|exact IH]. eapply sfx_trans; eauto.
Qed.
Ltac sfx_all :=
  repeat match goal with
  | H : tok_at _ _ _ _ |- _ => apply tok_at_sfx in H
  | H : blank _ _ |- _ => apply blank_sfx in H
  | H : spells _ _ _ |- _ => apply spells_sfx in H
  | H : token_at _ _ _ |- _ => apply token_sfx in H
  | H : gap _ _ |- _ => apply gap_sfx in H
  | H : same_line _ _ |- _ => apply same_line_sfx in H
  | H : head _ _ _ _ _ _ _ |- _ => apply head_sfx in H; destruct H
  | H : dexpr _ _ _ _ |- _ => apply dexpr_shrinks in H; destruct H
  | H : dlval _ _ _ |- _ => apply dlval_shrinks in H; destruct H
  | H : dlhs _ _ _ _ _ _ |- _ => apply dlhs_sfx in H
  | H : dlvals _ _ _ |- _ => apply dlvals_sfx in H
  | H : dexprs _ _ _ |- _ => apply dexprs_sfx in H
  | H : dfparams _ _ _ _ _ |- _ => apply dfparams_sfx in H
  | H : dattrs _ _ _ _ |- _ => apply dattrs_sfx in H
  | H : ddepth _ _ _ |- _ => apply ddepth_sfx in H
  | H : dpattern _ _ _ |- _ => apply dpattern_sfx in H
  | H : dhwords _ _ _ _ |- _ => apply dhwords_sfx in H
  | H : dtrail _ _ _ |- _ => apply dtrail_sfx in H
  | H : dhlines _ _ _ _ |- _ => apply dhlines_sfx in H
  end.
(** Chain the known suffix facts from the goal's right side. *)
Ltac sfx_chain :=
  solve [repeat first [eassumption | apply sfx_refl
    | match goal with |- sfx ?a ?c => match goal with
        | H : sfx ?b c |- _ => (lazymatch b with c => fail | _ => idtac end);
            apply (sfx_trans a b c); [clear H|exact H]
      end end]].

Lemma opens_fin neovim B w e fs : opens neovim B w e fs -> fin fs = true -> is_eof e = true.
Proof.
  intros H. induction H; cbn [fin existsb fin_frame f_kind f_body orb]; intros Hf;
    try (rewrite orb_false_r in Hf; eapply block_fin; eauto; reflexivity);
    specialize (IHopens Hf); eapply sfx_eof; try exact IHopens;
    repeat match goal with
    | H : block _ _ _ _ _ |- _ => apply block_sfx in H
    | H : if_chain _ _ _ _ _ _ _ |- _ => apply script_sfx in H
    | H : try_chain _ _ _ _ _ _ _ |- _ => apply script_sfx in H
    end; sfx_all; sfx_chain.
Qed.
Lemma inv_fin neovim B st : inv neovim B st -> fin (ctx st) = true -> is_eof (cur st) = true.
Proof.
  intros [_ [w [e [Ho Hg]]]] Hf. apply opens_fin in Ho; auto. apply gap_sfx in Hg. eapply sfx_eof; eauto.
Qed.

Lemma fin_node_map h v : fin_node (map_pos h v) = fin_node v.
Proof. destruct v; reflexivity. Qed.
Lemma fin_map h fs : fin (map (map_frame h) fs) = fin fs.
Proof.
  induction fs as [|f fs IH]; [reflexivity|]. unfold fin in *. cbn [existsb map]. rewrite IH. f_equal.
  unfold fin_frame. cbn [map_frame f_kind f_body]. destruct (f_kind f); cbn [map_kind]; auto.
  induction (f_body f) as [|v l IHl]; cbn [existsb map]; auto. rewrite fin_node_map, IHl. reflexivity.
Qed.
Lemma fin_rel h h' fs fs' : ctxrel h h' fs fs' -> fin fs = fin fs'.
Proof. unfold ctxrel. intros E. rewrite <- (fin_map h fs), E. apply fin_map. Qed.

Section Whole.
Context (neovim : bool) (h h' : pos -> pos).
Context (Hidx : forall p p' q q', Sim.prel h h' p p' -> Sim.prel h h' q q' -> (p_i p' =? p_i q' + 1) = (p_i p =? p_i q + 1)).

(** ** The same text *)

Section Closed.
Context (F F' : cursor).
Local Notation sim := (Sim.sim false F F' h h').
Local Notation srel := (SimCmd.srel false F F' h h').
Local Notation orel := (Sim.orel false F F' h h').
Lemma loop_closed n : forall n' st st', srel st st' -> orel srel (cmds_loop neovim n st) (cmds_loop neovim n' st').
Proof.
  induction n as [|n IH]; intros n' st st' R; [exact I|]. destruct n' as [|n']; [apply orel_oof_r|]. cbn [cmds_loop].
  pose proof R as [Sm _]. rewrite (sim_iseof _ _ _ _ _ _ _ Sm). destruct (is_eof (cur st)); [exact R|].
  destruct (one_cmd_sim neovim false F F' h h' Hidx st st' R) as [G|[O _]]; [discriminate| |discriminate].
  eapply orel_bind; [exact G|]. intros a a' [[[Sa|[O _]] Ra]|[O _]]; try discriminate. apply IH. split; auto.
Qed.
Lemma vim_parse_closed c c' : sim c c' -> orel (Sim.vrel h h') (vim_parse neovim c) (vim_parse neovim c').
Proof.
  intros Sm. unfold vim_parse. pose proof (sim_pos _ _ _ _ _ _ _ Sm) as P.
  eapply orel_bind. { apply loop_closed. split; [exact Sm|]. split; [|reflexivity]. cbn [ctx]. unfold ctxrel. cbn [map]. f_equal.
    unfold map_frame. cbn [f_kind f_pos f_ea f_body map_kind]. rewrite P. reflexivity. }
  intros a a' Ra. pose proof Ra as [Sa [Xa _]]. pose proof (sim_pos _ _ _ _ _ _ _ Sa) as Pa.
  eapply orel_bind; [apply top_rel, Xa|]. intros f f' Rf. rewrite (is_kind_rel h h' is_function _ _ gi_fun Rf).
  destruct (is_function _); [apply orel_raise; auto|].
  eapply orel_bind; [apply check_sim; eauto|]. intros _ _ _. apply kind_inv in Rf. destruct Rf as [_ [A [_ B]]].
  cbn [Sim.orel]. unfold Sim.vrel. cbn [map_pos]. unfold Sim.prel in A. unfold Sim.vsrel in B. rewrite A, B. reflexivity.
Qed.
End Closed.

(** ** The same text up to a :finish *)

Section Open.
Context (q : pos) (F' : cursor) (B B' : cursor) (HB : wf B) (HB' : wf B').
Local Notation sim := (Sim.sim true (Eof q) F' h h').
Local Notation srel := (SimCmd.srel true (Eof q) F' h h').
Local Notation inv := (CmdLoop.inv neovim).
Lemma sim_open c c' : sim c c' -> is_eof c = false /\ is_eof c' = false.
Proof. intros H. destruct H; try discriminate; auto. Qed.
Lemma csafe_ok {A} nv C0 (P : A -> Prop) m a : csafe nv C0 P m -> m = Ok a -> P a.
Proof. intros H ->. exact H. Qed.
Lemma loop_eof n st b : is_eof (cur st) = true -> cmds_loop neovim n st = Ok b -> b = st.
Proof. destruct n; [discriminate|]. cbn [cmds_loop]. intros ->. intros E. injection E as <-. reflexivity. Qed.
Lemma loop_open n : forall n' st st' b, srel st st' -> inv B st -> inv B' st' ->
  cmds_loop neovim n st = Ok b -> fin (ctx b) = true ->
  cmds_loop neovim n' st' = OutOfFuel \/
  exists b', cmds_loop neovim n' st' = Ok b' /\ ctxrel h h' (ctx b) (ctx b').
Proof.
  induction n as [|n IH]; intros n' st st' b R Hi Hi' E Hf; [discriminate|]. destruct n' as [|n']; [left; reflexivity|].
  cbn [cmds_loop] in *. pose proof R as [Sm _]. destruct (sim_open _ _ Sm) as [E1 E2]. rewrite E1 in E. rewrite E2.
  assert (Hn : fin (ctx st) = false).
  { destruct (fin (ctx st)) eqn:Ef; auto. rewrite (inv_fin _ _ _ Hi Ef) in E1. discriminate. }
  destruct (parse_one_cmd neovim st) as [a| | |] eqn:Ea; try discriminate. cbn [bind] in E.
  pose proof (csafe_ok _ _ _ _ _ (one_safe neovim B HB st Hi E1) Ea) as [Ia _].
  pose proof (one_safe neovim B' HB' st' Hi' E2) as Sr.
  assert (Done : forall a', is_eof (cur a) = true -> inv B' a' -> ctxrel h h' (ctx a) (ctx a') ->
     cmds_loop neovim n' a' = OutOfFuel \/ exists b', cmds_loop neovim n' a' = Ok b' /\ ctxrel h h' (ctx b) (ctx b')).
  { intros a' Hea Ia' X. apply loop_eof in E; auto. subst b. destruct n' as [|n']; [left; reflexivity|]. cbn [cmds_loop].
    rewrite (fin_rel _ _ _ _ X) in Hf. rewrite (inv_fin _ _ _ Ia' Hf). right. eauto. }
  destruct (one_cmd_sim neovim true (Eof q) F' h h' Hidx st st' R (fun _ => Hn)) as [G|[_ [a0 [G L]]]].
  - rewrite Ea in G. destruct (parse_one_cmd neovim st') as [a'| | |] eqn:Ea'; cbn [Sim.orel bind] in *; try contradiction; try discriminate G; auto.
    destruct Sr as [Ia' _]. destruct G as [[[Sa|[_ [Ka Ka']]] Ra]|[_ [Ka [Ka' [Xa _]]]]].
    + eapply IH; eauto. split; auto.
    + apply Done; auto. rewrite Ka. reflexivity. apply Ra.
    + apply Done; auto.
  - rewrite Ea in G. injection G as <-. exfalso. unfold scl, lcl in L. cbn [clen probe andb] in L.
    assert (Hea : is_eof (cur a) = true) by (destruct (cur a); cbn [clen] in L; auto; lia).
    apply loop_eof in E; auto. subst b. rewrite Hf in L. lia.
Qed.
(** The first text at its end, the second at what it has more. *)
Lemma loop_step n st : is_eof (cur st) = false -> cmds_loop neovim (S n) st = bind (parse_one_cmd neovim st) (cmds_loop neovim n).
Proof. intros E. cbn [cmds_loop]. rewrite E. reflexivity. Qed.
Lemma loop_reach n : forall st st' b, srel st st' -> inv B st -> inv B' st' ->
  cmds_loop neovim n st = Ok b -> fin (ctx b) = false -> open_tail (ctx b) = false ->
  exists k b', (forall m, cmds_loop neovim (k + m) st' = cmds_loop neovim m b') /\ (k + clen F' <= clen (cur st'))%nat /\
    cur b' = F' /\ ctxrel h h' (ctx b) (ctx b') /\ cache b' = cache b.
Proof.
  induction n as [|n IH]; intros st st' b R Hi Hi' E Hf Ho; [discriminate|].
  cbn [cmds_loop] in E. pose proof R as [Sm _]. destruct (sim_open _ _ Sm) as [E1 E2]. rewrite E1 in E.
  assert (Hn : fin (ctx st) = false).
  { destruct (fin (ctx st)) eqn:Ef; auto. rewrite (inv_fin _ _ _ Hi Ef) in E1. discriminate. }
  destruct (parse_one_cmd neovim st) as [a| | |] eqn:Ea; try discriminate. cbn [bind] in E.
  pose proof (csafe_ok _ _ _ _ _ (one_safe neovim B HB st Hi E1) Ea) as [Ia _].
  pose proof (one_safe neovim B' HB' st' Hi' E2) as Sr.
  destruct (one_cmd_sim neovim true (Eof q) F' h h' Hidx st st' R (fun _ => Hn)) as [G|[_ [a0 [G L]]]].
  - rewrite Ea in G. destruct (parse_one_cmd neovim st') as [a'| | |] eqn:Ea'; cbn [Sim.orel bind csafe] in *; try contradiction; try discriminate G.
    destruct Sr as [Ia' La']. destruct G as [[[Sa|[_ [Ka Ka']]] [Xa Ca]]|[_ [Ka [Ka' [Xa [Fa _]]]]]].
    + destruct (IH a a' b) as [k [b' [K1 [K2 K3]]]]; auto. { split; auto. }
      exists (S k), b'. split; [|split; [lia|exact K3]]. intros m. cbn [Nat.add]. rewrite loop_step, Ea' by auto. cbn [bind]. apply K1.
    + apply loop_eof in E; [|rewrite Ka; reflexivity]. subst b. exists 1%nat, a'. rewrite Ka' in *.
      split; [|split; [lia|split; [reflexivity|split; [exact Xa|auto]]]]. intros m. cbn [Nat.add]. rewrite loop_step, Ea' by auto. reflexivity.
    + apply loop_eof in E; auto. subst b. congruence.
  - rewrite Ea in G. injection G as <-. exfalso. unfold scl, lcl in L. cbn [clen probe andb] in L.
    assert (Hea : is_eof (cur a) = true) by (destruct (cur a); cbn [clen] in L; auto; lia).
    apply loop_eof in E; auto. subst b. rewrite Hf, Ho in L. cbn in L. lia.
Qed.
Lemma vim_parse_open v : sim B B' -> vim_parse neovim B = Ok v ->
  match v with VToplevel _ body => existsb fin_node body = true | _ => False end ->
  vim_parse neovim B' = OutOfFuel \/ exists v', vim_parse neovim B' = Ok v' /\ Sim.vrel h h' v v'.
Proof.
  intros Sm E Hf. unfold vim_parse in *. pose proof (sim_pos _ _ _ _ _ _ _ Sm) as P.
  destruct (cmds_loop neovim (S (clen B)) _) as [a| | |] eqn:Ea; try discriminate. cbn [bind] in E.
  assert (I0 : forall C0, wf C0 -> inv C0 (mkSt C0 [mkFrame FTop (getpos C0) ea0 []] [])).
  { intros C0 _. split; [constructor|]. exists top_place, C0. cbn [ctx cur]. split; [|constructor]. apply ob_top. constructor. }
  pose proof (csafe_ok _ _ _ _ _ (loop_safe neovim B HB _ _ (I0 B HB) (Nat.lt_succ_diag_r _)) Ea) as [Ia _].
  unfold top_frame in *. destruct (ctx a) as [|f fs] eqn:Ex; [discriminate|]. cbn [bind] in E.
  destruct (is_function (f_kind f)) eqn:K1; [discriminate|]. unfold check_missing_if_try_loops in *.
  destruct (is_if_part (f_kind f)) eqn:K2; [discriminate|].
  destruct (is_try_part (f_kind f)) eqn:K3; [discriminate|].
  destruct (is_while (f_kind f)) eqn:K4; [discriminate|].
  destruct (is_for (f_kind f)) eqn:K5; [discriminate|]. cbn [bind] in E. injection E as <-.
  assert (Ek : f_kind f = FTop) by (destruct (f_kind f); try discriminate; auto).
  assert (Hfa : fin (ctx a) = true). { rewrite Ex. cbn [fin existsb fin_frame]. unfold fin_frame. rewrite Ek, Hf. reflexivity. }
  edestruct loop_open as [G|[b' [G X]]]; [| |exact (I0 B' HB')|exact Ea|exact Hfa| |].
  { split; [exact Sm|]. split; [|reflexivity]. cbn [ctx]. unfold ctxrel. cbn [map]. f_equal.
    unfold map_frame. cbn [f_kind f_pos f_ea f_body map_kind]. unfold Sim.prel in P. rewrite P. reflexivity. }
  { exact (I0 B HB). }
  { left. rewrite G. reflexivity. }
  right. rewrite G. cbn [bind]. rewrite Ex in X. destruct (ctx b') as [|f' fs'] eqn:Ex'; [discriminate|]. apply ctx_inv in X. destruct X as [X _].
  cbn [bind]. apply kind_inv in X. destruct X as [X1 [X2 [X3 X4]]]. rewrite Ek in X1. cbn [map_kind] in X1.
  assert (Ek' : f_kind f' = FTop) by (destruct (f_kind f'); cbn [map_kind] in X1; try discriminate; auto).
  rewrite Ek'. cbn [is_function is_if_part is_try_part is_while is_for bind]. eexists. split; [reflexivity|].
  unfold Sim.vrel. cbn [map_pos]. unfold Sim.prel in X2. unfold Sim.vsrel in X4. rewrite X2, X4. reflexivity.
Qed.
(** ** An error of the first text *)

Lemma sim_end c c' : sim c c' -> forall d, sfx d c -> is_eof d = true -> d = Eof q.
Proof.
  intros H. induction H as [p p' O _|p p' _ _|x p p' c c' _ H IH]; [discriminate| |]; intros d Hd He.
  - inversion Hd; subst; [discriminate|]. match goal with X : sfx _ (Eof _) |- _ => inversion X; subst end. reflexivity.
  - inversion Hd; subst; [discriminate|]. auto.
Qed.
Local Notation gone := (Sim.orel true (Eof q) F' h h' (fun _ _ => False)).
Lemma gone_of {A A' D D'} (Q : A -> A' -> Prop) (o : outcome A) (o' : outcome A') (k : A -> outcome D) (k' : A' -> outcome D') :
  (forall a, o <> Ok a) -> Sim.orel true (Eof q) F' h h' Q o o' -> gone (bind o k) (bind o' k').
Proof.
  intros N G. destruct o as [a|e|x|]; [congruence| | |]; destruct o' as [a'|e'|x'|]; cbn [bind Sim.orel] in *; auto; destruct (k' a'); auto.
Qed.
Lemma loop_err n : forall n' st st', srel st st' -> inv B st -> inv B' st' ->
  (exists b, cmds_loop neovim n st = Ok b) \/ gone (cmds_loop neovim n st) (cmds_loop neovim n' st').
Proof.
  induction n as [|n IH]; intros n' st st' R Hi Hi'; [right; exact I|]. destruct n' as [|n']; [right; apply orel_oof_r|].
  cbn [cmds_loop]. pose proof R as [Sm _]. destruct (sim_open _ _ Sm) as [E1 E2]. rewrite E1, E2.
  assert (Hn : fin (ctx st) = false).
  { destruct (fin (ctx st)) eqn:Ef; auto. rewrite (inv_fin _ _ _ Hi Ef) in E1. discriminate. }
  pose proof (one_safe neovim B HB st Hi E1) as Sa. pose proof (one_safe neovim B' HB' st' Hi' E2) as Sr.
  assert (Done : forall a, is_eof (cur a) = true -> (exists b, cmds_loop neovim n a = Ok b) \/ cmds_loop neovim n a = OutOfFuel).
  { intros a He. destruct n; [right; reflexivity|]. cbn [cmds_loop]. rewrite He. eauto. }
  assert (Fin : forall a (o' : outcome pstate), is_eof (cur a) = true -> (exists b, cmds_loop neovim n a = Ok b) \/ gone (cmds_loop neovim n a) o').
  { intros a o' He. destruct (Done a He) as [X|X]; [left; exact X|right; rewrite X; exact I]. }
  destruct (one_cmd_sim neovim true (Eof q) F' h h' Hidx st st' R (fun _ => Hn)) as [G|[_ [a0 [G L]]]].
  - destruct (parse_one_cmd neovim st) as [a|e|x|] eqn:Ea;
      [|right; eapply gone_of; [|exact G]; discriminate|right; eapply gone_of; [|exact G]; discriminate|right; exact I].
    destruct (parse_one_cmd neovim st') as [a'| | |] eqn:Ea'; cbn [Sim.orel bind csafe] in *; try contradiction.
    destruct Sa as [Ia _]. destruct Sr as [Ia' _]. destruct G as [[[Sa|[_ [Ka Ka']]] Ra]|[_ [Ka _]]].
    + apply IH; auto. split; auto.
    + apply Fin. rewrite Ka. reflexivity.
    + apply Fin. exact Ka.
  - rewrite G. cbn [bind]. apply Fin. unfold scl, lcl in L. cbn [clen probe andb] in L. destruct (cur a0); cbn [clen] in L; auto; lia.
Qed.
Lemma inv_first C0 : inv C0 (mkSt C0 [mkFrame FTop (getpos C0) ea0 []] []).
Proof. split; [constructor|]. exists top_place, C0. cbn [ctx cur]. split; [|constructor]. apply ob_top. constructor. Qed.
Lemma vim_parse_err : sim B B' -> (exists v, vim_parse neovim B = Ok v) \/ gone (vim_parse neovim B) (vim_parse neovim B').
Proof.
  intros Sm. unfold vim_parse. pose proof (sim_pos _ _ _ _ _ _ _ Sm) as P.
  destruct (loop_err (S (clen B)) (S (clen B')) (mkSt B [mkFrame FTop (getpos B) ea0 []] []) (mkSt B' [mkFrame FTop (getpos B') ea0 []] [])) as [[b Eb]|G];
    auto using inv_first.
  { split; [exact Sm|]. split; [|reflexivity]. cbn [ctx]. unfold ctxrel. cbn [map]. f_equal.
    unfold map_frame. cbn [f_kind f_pos f_ea f_body map_kind]. unfold Sim.prel in P. rewrite P. reflexivity. }
  - pose proof (csafe_ok _ _ _ _ _ (loop_safe neovim B HB _ _ (inv_first B) (Nat.lt_succ_diag_r _)) Eb) as [[_ [w [e [Ho Hg]]]] He].
    assert (Ec : cur b = Eof q).
    { apply (sim_end _ _ Sm); auto. apply gap_sfx in Hg. apply opens_sfx in Ho. eapply sfx_trans; eauto. }
    rewrite Eb. cbn [bind]. unfold top_frame. destruct (ctx b) as [|f fs]; cbn [bind].
    { right. apply orel_fail; auto. right. exact I. }
    rewrite Ec. cbn [getpos].
    assert (Lost : forall m (o' : outcome vnode), gone (@raise vnode m q) o').
    { intros m o'. apply orel_fail; auto. split; auto. right. exists m. reflexivity. }
    destruct (is_function (f_kind f)); [right; apply Lost|]. unfold check_missing_if_try_loops.
    destruct (is_if_part (f_kind f)); [right; apply Lost|]. destruct (is_try_part (f_kind f)); [right; apply Lost|].
    destruct (is_while (f_kind f)); [right; apply Lost|]. destruct (is_for (f_kind f)); [right; apply Lost|]. left. cbn [bind]. eauto.
  - destruct (cmds_loop neovim (S (clen B)) _) as [b|e|x|] eqn:Eb.
    + destruct (cmds_loop neovim (S (clen B')) _); cbn [Sim.orel] in G; try contradiction. right. apply orel_oof_r.
    + right. eapply (gone_of _ (@PErr pstate e)); [|exact G]. discriminate.
    + right. eapply (gone_of _ (@Panic pstate x)); [|exact G]. discriminate.
    + right. exact I.
Qed.
End Open.
(** ** The first text with one comment line more *)

Section Probe.
Context (F F' : cursor) (B B' : cursor) (HB : wf B) (HB' : wf B') (HF : probe F = true).
Local Notation sim := (Sim.sim true F F' h h').
Local Notation srel := (SimCmd.srel true F F' h h').
Local Notation inv := (CmdLoop.inv neovim).
Lemma loop_line_end n st b : at_end (cur st) = true -> (clen (cur st) <= 1)%nat -> cmds_loop neovim n st = Ok b -> ctx b = ctx st.
Proof.
  destruct n as [|n]; [discriminate|]. cbn [cmds_loop]. destruct st as [[p|[|r] p c] fs ch]; cbn [cur at_end is_eof clen]; intros A L E; try discriminate A.
  - injection E as <-. reflexivity.
  - destruct c as [q|]; [|cbn [clen] in L; lia]. change (parse_one_cmd neovim (mkSt (Cons EOL p (Eof q)) fs ch)) with (Ok (mkSt (Eof q) fs ch)) in E.
    cbn [bind] in E. destruct n as [|n]; [discriminate|]. cbn [cmds_loop cur is_eof] in E. injection E as <-. reflexivity.
Qed.
Lemma sim_going c c' : sim c c' -> is_eof c = false /\ is_eof c' = false.
Proof. intros H. destruct H; try discriminate; auto. Qed.
Lemma loop_probe n : forall st st' b, srel st st' -> inv B st -> inv B' st' ->
  cmds_loop neovim n st = Ok b -> comment_tail (ctx b) = true ->
  exists k n0 a a', cmds_loop neovim n0 a = Ok b /\ inv B a /\ cur a = F /\ cur a' = F' /\ ctxrel h h' (ctx a) (ctx a') /\ cache a' = cache a /\
    (forall m, cmds_loop neovim (k + m) st = cmds_loop neovim m a) /\
    (forall m, cmds_loop neovim (k + m) st' = cmds_loop neovim m a') /\ (k + clen F' <= clen (cur st'))%nat.
Proof.
  induction n as [|n IH]; intros st st' b R Hi Hi' E Hf; [discriminate|].
  cbn [cmds_loop] in E. pose proof R as [Sm _]. destruct (sim_going _ _ Sm) as [E1 E2]. rewrite E1 in E.
  assert (Hn : fin (ctx st) = false).
  { destruct (fin (ctx st)) eqn:Ef; auto. rewrite (inv_fin _ _ _ Hi Ef) in E1. discriminate. }
  destruct (parse_one_cmd neovim st) as [a| | |] eqn:Ea; try discriminate. cbn [bind] in E.
  pose proof (one_safe neovim B HB st Hi E1) as Sa. rewrite Ea in Sa. cbn [csafe] in Sa. destruct Sa as [Ia La].
  pose proof (one_safe neovim B' HB' st' Hi' E2) as Sr.
  destruct (one_cmd_sim neovim true F F' h h' Hidx st st' R (fun _ => Hn)) as [G|[_ [a0 [G L]]]].
  - rewrite Ea in G. destruct (parse_one_cmd neovim st') as [a'| | |] eqn:Ea'; cbn [Sim.orel bind csafe] in *; try contradiction; try discriminate G.
    destruct Sr as [Ia' La']. destruct G as [[[Sa|[_ [Ka Ka']]] [Xa Ca]]|[_ [Ka [Ka' [Xa [_ Fa]]]]]].
    + destruct (IH a a' b) as [k [n0 [a1 [a1' [K1 [K2 [K3 [K4 [K5 [K6 [K7 [K8 K9]]]]]]]]]]]]; auto. { split; auto. }
      exists (S k), n0, a1, a1'. do 6 (split; [assumption|]). split; [|split; [|lia]].
      * intros m. cbn [Nat.add cmds_loop]. rewrite E1, Ea. cbn [bind]. apply K7.
      * intros m. cbn [Nat.add cmds_loop]. rewrite E2, Ea'. cbn [bind]. apply K8.
    + exists 1%nat, n, a, a'. do 6 (split; [auto|]). split; [|split; [|rewrite Ka' in La'; lia]].
      * intros m. cbn [Nat.add cmds_loop]. rewrite E1, Ea. reflexivity.
      * intros m. cbn [Nat.add cmds_loop]. rewrite E2, Ea'. reflexivity.
    + apply loop_eof in E; auto. subst b. congruence.
  - rewrite Ea in G. injection G as <-. exfalso. unfold scl, lcl in L. rewrite HF in L. cbn [andb] in L.
    assert (LF : clen F = 2%nat). { destruct F as [|[|] ? [|[|] ? [|]]]; try discriminate HF. reflexivity. }
    rewrite LF in L. destruct (at_end (cur a)) eqn:A; [|lia]. apply loop_line_end in E; auto; [|lia]. rewrite <- E, Hf in L. lia.
Qed.
End Probe.
End Whole.
