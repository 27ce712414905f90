(** The functions that read a command as text keep what [Extent] says. *)
From Coq Require Import Lia ZifyBool ZifyNat ZifyN.
From Verif Require Import Base CharClass Reader Vnode Tokenizer ExprParser CmdTable CmdParser
  Cursor Grammar TokSafe ExprSafe Script Fault Safe CmdBase CmdArgs HeadProof.

(** * An expression stands on one line *)

Lemma blank_line c d : blank c d -> same_line c d.
Proof. intros [ws [H _]]. exists ws. exact H. Qed.
Lemma token_line c t c' : token_at c t c' -> tk t <> KEol -> same_line c c'.
Proof.
  intros [d [H1 [_ H2]]] Hk. apply blank_line in H1. eapply same_line_trans; [exact H1|].
  destruct (tk t); try (destruct H2 as [H2 _]; exists (tv t); exact H2); try congruence.
  destruct H2 as [_ [-> _]]. apply same_line_refl.
Qed.
Lemma tok_line k c p c' : tok_at k c p c' -> k <> KEol -> same_line c c'.
Proof. intros [t [H1 [H2 _]]] Hk. eapply token_line; eauto. congruence. Qed.
Lemma dparams_line c vs c' : dparams c vs c' -> same_line c c'.
Proof.
  induction 1; repeat match goal with
  | H : tok_at _ _ _ _ |- _ => apply tok_line in H; [|discriminate]
  | H : token_at _ _ _ |- _ => apply token_line in H; [|congruence]
  end; eauto using same_line_trans.
Qed.

Ltac line_chain :=
  match goal with
  | |- same_line ?c ?c => apply same_line_refl
  | H : same_line ?c _ |- same_line ?c _ => apply (same_line_trans _ _ _ H); clear H; line_chain
  end.
Ltac line_auto :=
  repeat match goal with
  | H : tok_at _ _ _ _ |- _ => apply tok_line in H; [|first [discriminate|congruence]]
  | H : token_at _ _ _ |- _ => apply token_line in H; [|congruence]
  | H : blank _ _ |- _ => apply blank_line in H
  | H : spells _ _ _ |- _ => apply spells_line in H
  | H : dparams _ _ _ |- _ => apply dparams_line in H
  end; line_chain.

Lemma derivation_line :
  (forall l c v c', dexpr l c v c' -> same_line c c') /\
  (forall c v c', dopt c v c' -> same_line c c') /\
  (forall k c vs c', dlist k c vs c' -> k <> KEol -> same_line c c') /\
  (forall l c kvs c', dentries l c kvs c' -> same_line c c') /\
  (forall l c v c', dkey l c v c' -> same_line c c') /\
  (forall c ps c', dname c ps c' -> same_line c c') /\
  (forall c ps c', dparts c ps c' -> same_line c c').
Proof.
  apply dexpr_mutind; intros; auto;
    repeat match goal with K : ?k <> KEol, H : ?k <> KEol -> _ |- _ => specialize (H K)
                         | H : KPClose <> KEol -> _ |- _ => specialize (H ltac:(discriminate))
                         | H : KSqClose <> KEol -> _ |- _ => specialize (H ltac:(discriminate)) end;
    try (line_auto; fail).
  - assert (k <> KEol) by (intros ->; destruct l as [|[|[|[|[|[|[|l]]]]]]]; discriminate). line_auto.
  - assert (k <> KEol) by (intros ->; discriminate). line_auto.
  - assert (tk t <> KEol) by (intros E; rewrite E in *; discriminate). line_auto.
  - destruct lit; line_auto.
  - destruct lit; line_auto.
Qed.
Lemma dexpr_line l c v c' : dexpr l c v c' -> same_line c c'.
Proof. apply derivation_line. Qed.

(** * Commands that a bar or a comment can follow *)

Lemma spells_parts s1 s2 a b : spells (s1 ++ s2) a b -> exists c, spells s1 a c /\ spells s2 c b.
Proof.
  revert a; induction s1 as [|r s1 IH]; intros a H.
  - exists a. split; [reflexivity|exact H].
  - destruct a as [p|[|r0] p t]; cbn [app spells] in H; try contradiction. destruct H as [-> H].
    destruct (IH t H) as [c [H1 H2]]. exists c. cbn [spells]. auto.
Qed.
Lemma spells_number : forall s a b, wf a -> spells s a b ->
  p_i (getpos b) = p_i (getpos a) + N.of_nat (length s).
Proof.
  induction s as [|r s IH]; intros a b Hw H.
  - cbn in H. subst b. cbn [length]. lia.
  - destruct a as [p|[|r0] p t]; cbn [spells] in H; try contradiction. destruct H as [-> H].
    pose proof (wf_tail _ _ _ Hw) as Ht. destruct Hw as [Hw _].
    rewrite (IH t b Ht H). cbn [length getpos]. lia.
Qed.

Definition not_white_end (s : text) : Prop := ~ (exists u r, s = u ++ [r] /\ iswhite r = true).
Lemma not_white_nil : not_white_end [].
Proof. intros [u [r [H _]]]. destruct u; discriminate. Qed.
Lemma not_white_char s r : iswhite r = false -> not_white_end (s ++ [r]).
Proof. intros H [u [r0 [E K]]]. apply app_inj_tail in E. destruct E; subst. congruence. Qed.

Definition ends_with (pc : option N) (done : text) : Prop :=
  match pc with None => done = [] | Some r => exists s, done = s ++ [r] end.

Section Args.
Context (B : cursor) (HB : wf B).

Definition sep_ok (x : cmd) (c0 : cursor) (done : text) : cursor * cursor * cursor -> Prop :=
  fun '(e, ns, c1) => e = c1 /\ exists s w rest s', spells s c0 ns /\ spells w ns c1 /\ all_white w /\
    not_white_end s /\ rest_of c1 rest /\ s ++ w = done ++ s' /\ argument expression_text x rest done s'.

Lemma sep_step x c0 done r p t res : spells done c0 (Cons (R r) p t) -> r <> 22 ->
  (forall Y, rest_of (Cons (R r) p t) Y -> ~ backquoted x Y /\ ~ ended x done Y) ->
  sep_ok x c0 (done ++ [r]) res -> sep_ok x c0 done res.
Proof.
  intros Hd Hr HY. destruct res as [[e ns] c1]. intros [He [s [w [rest [s' [H1 [H2 [H3 [H4 [H5 [H6 H7]]]]]]]]]]].
  split; [exact He|]. exists s, w, rest, (r :: s'). rewrite <- app_assoc in H6. cbn [app] in H6.
  repeat (split; [assumption|]).
  pose proof (spells_app _ _ _ _ _ H1 H2) as Ha. rewrite H6 in Ha.
  destruct (spells_parts _ _ _ _ Ha) as [c [K1 K2]].
  assert (c = Cons (R r) p t) by (eapply spells_fun; eauto). subst c.
  destruct (HY (r :: s' ++ rest)) as [HY1 HY2].
  { apply (rest_app (r :: s') _ c1 rest); auto. }
  apply ar_char; auto.
Qed.

Lemma sep_loop_ok x argi c0 : sfx c0 B -> (c_name x = T "redir" -> argi = p_i (getpos c0)) ->
  forall n pc nosp done c, spells done c0 c -> ends_with pc done -> (clen c < n)%nat ->
  (o_in iswhite pc = true -> exists u v, done = u ++ v /\ spells u c0 nosp /\ spells v nosp c /\
     all_white v /\ not_white_end u) ->
  safe B (sep_ok x c0 done) (sep_loop n x argi pc nosp c).
Proof.
  intros H0 Hargi. induction n as [|n IH]; intros pc nosp done c Hd Hpc Hn Hs; [lia|]. cbn [sep_loop].
  assert (Hcc : sfx c c0) by (eapply spells_sfx; eauto).
  assert (HcB : sfx c B) by (eapply sfx_trans; eauto).
  set (nosp1 := if o_in iswhite pc then nosp else c).
  assert (Hs1 : exists u v, done = u ++ v /\ spells u c0 nosp1 /\ spells v nosp1 c /\
     all_white v /\ not_white_end u).
  { subst nosp1. destruct (o_in iswhite pc) eqn:Ew; [auto|]. exists done, []. rewrite app_nil_r.
    repeat (split; [first [reflexivity|assumption|intros ? []]|]).
    destruct pc as [r|]; cbn [ends_with] in Hpc.
    - destruct Hpc as [s ->]. apply not_white_char. exact Ew.
    - subst done. apply not_white_nil. }
  clear Hs. clearbody nosp1. destruct Hs1 as [u [v [Euv [Su [Sv [Hv Hu]]]]]].
  assert (Hstop : forall rest, rest_of c rest -> ended x done rest -> safe B (sep_ok x c0 done) (Ok (c, nosp1, c))).
  { intros rest Hr He. cbn [safe sep_ok]. split; [reflexivity|]. exists u, v, rest, [].
    rewrite app_nil_r. repeat (split; [auto|]). constructor; auto. }
  destruct c as [p|[|r] p t]; cbn [peek ch_of_cell].
  { apply (Hstop []). exists (Eof p). split; reflexivity. left. reflexivity. }
  { apply (Hstop []). exists (Cons EOL p t). split; reflexivity. left. reflexivity. }
  assert (Hdr : spells (done ++ [r]) c0 t) by (eapply spells_app; [exact Hd|cbn; auto]).
  cbn [clen] in Hn. cbn [get snd].
  assert (Hrec : safe B (sep_ok x c0 (done ++ [r])) (sep_loop n x argi (Some r) nosp1 t)).
  { apply IH; auto. cbn. eauto. lia. cbn [o_in]. intros Hr.
    exists u, (v ++ [r]). rewrite app_assoc, <- Euv. split; [reflexivity|]. split; [exact Su|].
    split. eapply spells_app; [exact Sv|cbn; auto]. split; [|exact Hu].
    intros y Hy. apply in_app_or in Hy. destruct Hy as [Hy|[<-|[]]]; auto. apply white_or; auto. }
  destruct (r =? 22) eqn:E22.
  { apply N.eqb_eq in E22. subst r.
    assert (Hlast : at_end t -> safe B (sep_ok x c0 done) (Ok (t, t, t))).
    { intros He. cbn [safe sep_ok]. split; [reflexivity|]. exists (done ++ [22]), [], [], [22].
      rewrite app_nil_r. split; [exact Hdr|]. split; [reflexivity|]. split; [intros ? []|].
      split; [apply not_white_char; reflexivity|]. split; [exists t; split; [reflexivity|exact He]|].
      split; [reflexivity|]. apply ar_quoted_end. reflexivity. }
    destruct t as [p1|[|r2] p1 t2]; cbn [peek ch_of_cell get snd]; try (apply Hlast; reflexivity).
    assert (Hd2 : spells (done ++ [22; r2]) c0 t2).
    { eapply spells_app; [exact Hd|]. cbn. auto. }
    eapply safe_imp; [|apply (IH (Some r2) (Cons (R r2) p1 t2) (done ++ [22; r2]) t2); auto].
    - intros [[e ns] c1] [He [s [w [rest [s' [K1 [K2 [K3 [K4 [K5 [K6 K7]]]]]]]]]]].
      cbn [sep_ok]. split; [exact He|]. exists s, w, rest, (22 :: r2 :: s').
      rewrite <- app_assoc in K6. repeat (split; [assumption|]). apply ar_quoted. exact K7.
    - exists (done ++ [22]). rewrite <- app_assoc. reflexivity.
    - cbn [clen] in Hn. lia.
    - cbn [o_in]. intros Hr. exists (done ++ [22]), [r2]. rewrite <- app_assoc. split; [reflexivity|].
      split; [exact Hdr|]. split; [cbn; auto|]. split.
      intros y [<-|[]]. apply white_or; auto. apply not_white_char. reflexivity. }
  apply N.eqb_neq in E22.
  destruct (text_eqb (peekn 2 (Cons (R r) p t)) (T "`=") && takes_files x) eqn:Eb.
  { clear Hrec. apply andb_true_iff in Eb. destruct Eb as [Eb Ef]. apply text_eqb_eq in Eb.
    apply peekn_getn in Eb. destruct Eb as [c2 [Eg Es]]. cbn [length] in Eg. rewrite Eg. cbn [snd].
    pose proof (spells_clen _ _ _ Es) as Hl. cbn [clen length] in Hl.
    pose proof (spells_sfx _ _ _ Es) as Hx.
    safe_b. apply parse_expr_safe; auto. eapply sfx_trans; eauto.
    { left. apply (ar_sign B (Cons (R r) p t) (T "`=") c2); auto. cbn. auto 20. }
    intros [v' c3] Hv'. cbn [is_expr_at] in Hv'. pose proof (dexpr_line _ _ _ _ Hv') as [se Se].
    destruct (dexpr_shrinks _ _ _ _ Hv') as [V1 V2].
    destruct (o_is (peek1 c3) (C "`")) eqn:Ep; cbn [negb].
    - apply o_is_peek1 in Ep. destruct Ep as [p4 [t4 ->]]. cbn [getn snd]. cbn [clen] in V2.
      assert (Hd2 : spells (done ++ T "`=" ++ se ++ T "`") c0 t4).
      { eapply spells_app; [exact Hd|]. eapply spells_app; [exact Es|]. eapply spells_app; [exact Se|].
        cbn. auto. }
      eapply safe_imp; [|apply (IH (Some (C "`")) nosp1 (done ++ T "`=" ++ se ++ T "`") t4); auto].
      + intros [[e ns] c1] [He [s [w [rest [s' [K1 [K2 [K3 [K4 [K5 [K6 K7]]]]]]]]]]].
        cbn [sep_ok]. split; [exact He|]. exists s, w, rest, (T "`=" ++ se ++ T "`" ++ s').
        rewrite <- !app_assoc in K6. repeat (split; [assumption|]).
        apply ar_expression; auto.
        * unfold takes_files in Ef. apply orb_true_iff in Ef. rewrite orb_true_iff in Ef.
          unfold file_names. tauto.
        * exists c2, v', (Cons (R (C "`")) p4 t4). auto.
      + exists (done ++ T "`=" ++ se). rewrite <- !app_assoc. reflexivity.
      + lia.
      + discriminate.
    - apply safe_raise. eapply sfx_trans; [exact V1|]. eapply sfx_trans; eauto.
      eapply cf_backtick; [|exact Es|exact Hv'|]; [auto|]. intros K. rewrite K in Ep. discriminate. }
  assert (Hback : forall Y, rest_of (Cons (R r) p t) Y -> ~ backquoted x Y).
  { intros Y HY [K1 [Y' ->]]. rewrite (peekn_rest 2 _ _ HY) in Eb. cbn [firstn app] in Eb.
    change (text_eqb (T "`=") (T "`=")) with true in Eb. cbn [andb] in Eb.
    unfold takes_files in Eb. apply orb_false_iff in Eb. rewrite orb_false_iff in Eb.
    unfold file_names, flag, has_flag in *. destruct Eb as [[Eb1 Eb2] Eb3].
    destruct K1 as [K1|[K1|K1]]; congruence. }
  assert (Hlen : p_i (getpos (Cons (R r) p t)) = p_i (getpos c0) + N.of_nat (length done)).
  { apply spells_number; auto. eapply wf_sfx; eauto. }
  assert (Hesc : o_is pc 92 = true <-> exists s, done = s ++ [92]).
  { destruct pc as [q|]; cbn [o_is ends_with] in *; split.
    - intros E. apply N.eqb_eq in E. subst q. exact Hpc.
    - intros [s E]. destruct Hpc as [s2 E2]. rewrite E2 in E. apply app_inj_tail in E. apply N.eqb_eq. tauto.
    - discriminate.
    - intros [s E]. subst done. destruct s; discriminate. }
  assert (Hredir : (negb (text_eqb (c_name x) (T "redir")) || negb (p_i (getpos (Cons (R r) p t)) =? argi + 1) ||
                negb (o_is pc (C "@"))) = false <-> c_name x = T "redir" /\ done = T "@").
  { rewrite !orb_false_iff, !negb_false_iff, text_eqb_eq, N.eqb_eq. rewrite Hlen. split.
    - intros [[K1 K2] K3]. split; [exact K1|]. rewrite (Hargi K1) in K2.
      assert (K4 : length done = 1%nat) by lia. destruct done as [|q [|? ?]]; try discriminate K4.
      destruct pc as [q'|]; [|discriminate]. cbn in Hpc, K3. destruct Hpc as [s E].
      destruct s as [|? [|? ?]]; inversion E; subst. apply N.eqb_eq in K3. subst. reflexivity.
    - intros [K1 K2]. clear Euv. subst done. split; [split; [exact K1|]|]. rewrite (Hargi K1). cbn [length]. lia.
      destruct pc as [q'|]; cbn in Hpc; [|discriminate]. destruct Hpc as [s E].
      destruct s as [|? [|? ?]]; inversion E; subst. reflexivity. }
  match goal with |- safe _ _ (if ?b then _ else _) => destruct b eqn:Estop end.
  - destruct (o_is pc 92) eqn:E92.
    + eapply safe_imp; [|exact Hrec]. intros res. apply sep_step with (p := p) (t := t); auto.
      intros Y HY. split; [auto|]. intros [->|[K _]].
      * pose proof (peek1_rest _ _ HY) as K. discriminate K.
      * apply K. apply Hesc. reflexivity.
    + destruct (rest_exists (Cons (R r) p t)) as [Y HY]. apply (Hstop Y HY).
      destruct (rest_tail _ _ _ _ HY) as [Y' [-> _]]. right. split.
      { intros K. apply Hesc in K. congruence. }
      apply orb_true_iff in Estop. destruct Estop as [Estop|Estop].
      * apply orb_true_iff in Estop. destruct Estop as [E|E]; apply N.eqb_eq in E; subst r.
        left. exists Y'. reflexivity. right. left. exists Y'. reflexivity.
      * right. right. apply andb_true_iff in Estop. destruct Estop as [Estop K].
        apply andb_true_iff in Estop. destruct Estop as [K1 K2]. apply N.eqb_eq in K1. subst r.
        split; [exists Y'; reflexivity|]. split. apply negb_true_iff in K2. exact K2.
        intros K3. apply Hredir in K3. congruence.
  - eapply safe_imp; [|exact Hrec]. intros res. apply sep_step with (p := p) (t := t); auto.
    intros Y HY. split; [auto|]. destruct (rest_tail _ _ _ _ HY) as [Y' [-> _]].
    apply orb_false_iff in Estop. destruct Estop as [Estop K]. apply orb_false_iff in Estop.
    destruct Estop as [K1 K2]. apply N.eqb_neq in K1. apply N.eqb_neq in K2.
    intros [E|[_ [[z E]|[[z E]|[[z E] [E2 E3]]]]]]; inversion E; subst; try contradiction.
    change (C """" =? C """") with true in K. unfold has_flag in K. unfold flag in E2. rewrite E2 in K.
    cbn [negb andb] in K. apply Hredir in K. contradiction.
Qed.

Lemma delimited_ok d t s e c' rest : pattern_post d 0 t (s, e, c') -> rest_of c' rest ->
  exists q, spells q t c' /\ delimited d rest q.
Proof.
  cbn [pattern_post]. destruct e.
  - intros [H1 [q H2]] _. exists (s ++ [d]). split. eapply spells_app; eauto. cbn; auto.
    apply dm_closed. exact H1.
  - intros [[j H1] [H2 H3]] Hr. exists s. split; [exact H2|]. apply (dm_open _ _ _ j); auto.
    apply (rest_unique c'); auto. exists c'. split; [reflexivity|exact H3].
Qed.

Lemma vimgrep_ok c : sfx c B ->
  safe B (fun c' => exists s, spells s c c' /\ forall rest, rest_of c' rest -> grep_pattern rest s)
    (skip_vimgrep_pat c).
Proof.
  intros Hc. unfold skip_vimgrep_pat. destruct (peek1 c) as [r|] eqn:E.
  2:{ cbn [safe]. exists []. split; [reflexivity|]. intros rest Hr. apply gp_none.
      pose proof (peek1_rest _ _ Hr) as K. destruct rest; congruence. }
  destruct (iswordc r) eqn:Ew.
  - unfold read_nonwhite. destruct (read_while (fun x => negb (iswhite x)) c) as [s c'] eqn:Er.
    cbn [snd safe]. exists s. pose proof (read_while_spells _ _ _ _ Er) as [K1 [K2 K3]].
    split; [exact K1|]. intros rest Hr. pose proof (read_longest _ _ _ _ _ Er Hr) as [_ [L1 L2]].
    apply peek1_some in E. destruct E as [p [t ->]].
    assert (Hwr : iswhite r = false).
    { destruct (iswhite r) eqn:E; auto. apply white_or in E. destruct E as [-> | ->]; discriminate Ew. }
    destruct s as [|r' s].
    { cbn in K1. subst c'. pose proof (peek1_rest _ _ Hr) as Hp. destruct rest as [|y rest]; [discriminate|].
      inversion Hp; subst. cbn [starts_with] in L2. rewrite Hwr in L2. discriminate. }
    cbn [spells] in K1. destruct K1 as [-> K1]. apply gp_word; auto.
    exists rest. auto.
  - apply peek1_some in E. destruct E as [p [t ->]]. cbn [getn snd].
    safe_b. unfold parse_pattern. apply (pattern_safe B r (clen t) t 0); [lia|]. eapply sfx_tail; eauto.
    intros [[s e] c2] H. destruct e; cbn [negb safe].
    + set (f := fun x => (x =? C "g") || (x =? C "j")).
      destruct (read_while f c2) as [fl c3] eqn:Ef. unfold skip_while. rewrite Ef. cbn [snd].
      destruct (rest_exists c3) as [rest0 Hr0].
      pose proof (read_longest _ _ _ _ _ Ef Hr0) as [F1 [F2 F3]].
      destruct (delimited_ok _ _ _ _ _ (fl ++ rest0) H) as [q [Q1 Q2]].
      { eapply rest_app; eauto. }
      exists (r :: q ++ fl). split.
      { cbn [spells]. split; [reflexivity|]. eapply spells_app; eauto. }
      intros rest Hr. assert (rest = rest0) by (eapply rest_unique; eauto). subst rest0.
      apply gp_delim; auto. exists rest. split; [reflexivity|].
      assert (Hf : forall y, mem_N y (T "gj") = f y).
      { intros y. unfold f. cbn. rewrite orb_false_r. reflexivity. }
      split.
      * rewrite forallb_forall in *. intros y Hy. rewrite Hf. auto.
      * destruct rest; [reflexivity|]. cbn [starts_with] in *. rewrite Hf. exact F3.
    + destruct (rest_exists c2) as [rest0 Hr0].
      destruct (delimited_ok _ _ _ _ _ rest0 H Hr0) as [q [Q1 Q2]].
      exists (r :: q). split. cbn [spells]. auto.
      intros rest Hr. assert (rest = rest0) by (eapply rest_unique; eauto). subst rest0.
      assert (rest = []).
      { cbn [pattern_post] in H. destruct H as [_ [_ H]]. apply (rest_unique c2); auto.
        exists c2. split; [reflexivity|exact H]. }
      subst rest. rewrite <- (app_nil_r q). apply gp_delim; auto. exists []. auto.
Qed.

Lemma separate_ok x argi c : sfx c B -> (c_name x = T "redir" -> argi = p_i (getpos c)) ->
  takes_bar x false = true ->
  safe B (fun '(z, c1) => exists s w rest, spells s c z /\ spells w z c1 /\ rest_of c1 rest /\
            text_of expression_text x false s w rest) (separate_nextcmd x argi c).
Proof.
  intros Hc Hargi Hbar. unfold separate_nextcmd.
  apply (safe_bind _ (fun c1 => exists p, spells p c c1 /\ forall rest, rest_of c1 rest ->
    if existsb (text_eqb (c_name x)) grep_names then grep_pattern rest p else p = [])).
  { change (is_vimgrep (c_name x)) with (existsb (text_eqb (c_name x)) grep_names).
    destruct (existsb _ _). apply vimgrep_ok; auto. cbn [safe]. exists []. split; [reflexivity|auto]. }
  intros c1 [p [P1 P2]].
  assert (S1 : sfx c1 B) by (eapply sfx_trans; [eapply spells_sfx; eauto|exact Hc]).
  assert (Hargi1 : c_name x = T "redir" -> argi = p_i (getpos c1)).
  { intros E. destruct (rest_exists c1) as [rest Hr]. specialize (P2 rest Hr). rewrite E in P2.
    cbn in P2. subst p. cbn in P1. subst c1. auto. }
  safe_b. apply (sep_loop_ok x argi c1 S1 Hargi1 (S (clen c1)) None c1 [] c1).
  reflexivity. reflexivity. lia. discriminate.
  intros [[e ns] c2] [-> [s [w [rest [s' [K1 [K2 [K3 [K4 [K5 [K6 K7]]]]]]]]]]]. cbn [app] in K6. subst s'.
  cbn [safe].
  assert (Hp : if existsb (text_eqb (c_name x)) grep_names then grep_pattern (s ++ w ++ rest) p else p = []).
  { apply P2. eapply rest_app; [exact K1|]. eapply rest_app; eauto. }
  unfold has_flag. fold (flag (T "NOTRLCOM") x). destruct (flag (T "NOTRLCOM") x) eqn:En.
  - exists (p ++ s ++ w), [], rest. split. eapply spells_app; [exact P1|]. eapply spells_app; eauto.
    split; [reflexivity|]. split; [exact K5|]. apply to_bar; auto.
    + rewrite <- app_assoc. exact Hp.
    + rewrite app_nil_r. exact K7.
    + rewrite En. reflexivity.
  - exists (p ++ s), w, rest. split. eapply spells_app; eauto.
    split; [exact K2|]. split; [exact K5|]. apply to_bar; auto. rewrite En. auto.
Qed.

(** * Commands that take following lines *)

Lemma lines_taken_line m y z c' : lines_taken m y z c' -> exists p t, y = Cons EOL p t.
Proof. destruct 1; eauto. Qed.
Lemma lines_taken_sfx m y z c' : lines_taken m y z c' -> sfx z y.
Proof.
  induction 1. constructor. constructor. eapply spells_sfx; eauto.
  constructor. eapply sfx_trans; [exact IHlines_taken|]. eapply spells_sfx; eauto.
Qed.
Lemma lines_taken_gap m y z c' : lines_taken m y z c' -> gap z c'.
Proof. induction 1; auto. apply gap_eol. constructor. constructor. Qed.

Definition taken_post (m : option text) (p : pos) (c : cursor) : list text * cursor -> Prop :=
  fun '(ls, c2) => exists z, lines_taken m (Cons EOL p c) z c2 /\
    getstr (Cons EOL p c) z = concat (map (cons 10) ls).

Lemma taken_step m p c l q t ls c2 : m <> Some l -> spells l c (Cons EOL q t) ->
  taken_post m q t (ls, c2) -> taken_post m p c (l :: ls, c2).
Proof.
  intros Hm Hl [z [Z1 Z2]]. exists z. split; [eapply lt_line; eauto|].
  pose proof (lines_taken_sfx _ _ _ _ Z1) as Sz. pose proof (spells_sfx _ _ _ Hl) as Sl.
  rewrite getstr_eol by (eapply sfx_trans; eauto).
  rewrite (getstr_app c (Cons EOL q t) z); auto. rewrite (spells_getstr _ _ _ Hl), Z2.
  cbn [map concat app]. reflexivity.
Qed.

Lemma until_marker_ok m : forall n p c, wf c -> (clen c < n)%nat ->
  safe B (taken_post (Some m) p c) (until_marker n m c).
Proof.
  induction n as [|n IH]; intros p c Hc Hn; [lia|]. cbn [until_marker].
  destruct (is_eof c) eqn:Ee.
  { cbn [safe taken_post]. exists (Cons EOL p c). split; [apply lt_eof; auto|].
    exact (spells_getstr [] (Cons EOL p c) (Cons EOL p c) eq_refl). }
  destruct (getn_all c) as [l c1] eqn:El.
  destruct (getall_eol _ _ _ Hc Ee El) as [q [t Et]].
  apply getn_all_spells in El. destruct El as [El Ea].
  pose proof (spells_sfx _ _ _ El) as Sl.
  destruct (text_eqb l m) eqn:Em.
  - apply text_eqb_eq in Em. subst l. cbn [safe taken_post]. exists c1. split; [eapply lt_marker; eauto|].
    rewrite getstr_eol by auto. rewrite (spells_getstr _ _ _ El). cbn. rewrite app_nil_r. reflexivity.
  - subst c1. cbn [get snd]. pose proof (sfx_clen _ _ Sl) as Hl. cbn [clen] in Hl.
    safe_b. apply (IH q t). apply (wf_tail EOL q). eapply wf_sfx; eauto. lia.
    intros [ls c2] H. cbn [safe]. eapply taken_step; eauto.
    intros K. inversion K; subst. rewrite (proj2 (text_eqb_eq l l) eq_refl) in Em. discriminate.
Qed.

Lemma read_all_ok : forall n p c, wf c -> (clen c < n)%nat ->
  safe B (taken_post None p c) (read_all_lines n c).
Proof.
  induction n as [|n IH]; intros p c Hc Hn; [lia|]. cbn [read_all_lines].
  destruct (is_eof c) eqn:Ee.
  { cbn [safe taken_post]. exists (Cons EOL p c). split; [apply lt_eof; auto|].
    exact (spells_getstr [] (Cons EOL p c) (Cons EOL p c) eq_refl). }
  unfold readline. destruct (getn_all c) as [l c1] eqn:El.
  destruct (getall_eol _ _ _ Hc Ee El) as [q [t Et]].
  apply getn_all_spells in El. destruct El as [El _].
  pose proof (spells_sfx _ _ _ El) as Sl.
  subst c1. cbn [get snd]. pose proof (sfx_clen _ _ Sl) as Hl. cbn [clen] in Hl.
  safe_b. apply (IH q t). apply (wf_tail EOL q). eapply wf_sfx; eauto. lia.
  intros [ls c2] H. cbn [safe]. eapply taken_step; eauto. discriminate.
Qed.

Lemma join_concat l ls : join_lines (l :: ls) = l ++ concat (map (cons 10) ls).
Proof.
  revert l; induction ls as [|m ls IH]; intros l.
  - cbn. rewrite app_nil_r. reflexivity.
  - rewrite join_cons by discriminate. rewrite IH. reflexivity.
Qed.

(** * :syntax *)

Lemma syntax_ok : forall n c, sfx c B -> (clen c < n)%nat ->
  safe B (fun c' => exists s, spells s c c' /\ forall rest, rest_of c' rest -> syntax_text rest s)
    (syntax_loop n c).
Proof.
  induction n as [|n IH]; intros c Hc Hn; [lia|]. cbn [syntax_loop].
  assert (Hend : at_end c \/ peek1 c = Some (C "|") -> safe B (fun c' => exists s, spells s c c' /\
    forall rest, rest_of c' rest -> syntax_text rest s) (Ok c)).
  { intros K. cbn [safe]. exists []. split; [reflexivity|]. intros rest Hr. apply sx_end.
    pose proof (peek1_rest _ _ Hr) as Hp. destruct rest as [|r rest]; [auto|]. right.
    destruct K as [K|K]; [unfold at_end in K|]; rewrite K in Hp; inversion Hp. exists rest. reflexivity. }
  destruct c as [p|[|r] p t]; cbn [peek ch_of_cell]; try (apply Hend; left; reflexivity).
  cbn [getn snd]. pose proof (sfx_tail _ _ _ _ Hc) as Ht. cbn [clen] in Hn.
  assert (Hpat : forall d, syntax_delimiter r = Some d ->
     safe B (fun c' => exists s, spells s (Cons (R r) p t) c' /\ forall rest, rest_of c' rest -> syntax_text rest s)
     (let* '(_, _, c1) := parse_pattern d t in syntax_loop n (snd (getn 1 c1)))).
  { intros d Hd. safe_b. unfold parse_pattern. apply (pattern_safe B d (clen t) t 0); [lia|auto].
    intros [[s e] c1] H. destruct (getn 1 c1) as [o c2] eqn:Eo. cbn [snd].
    pose proof (getn_spells _ _ _ _ Eo) as So.
    destruct (rest_exists c1) as [r1 Hr1]. destruct (delimited_ok _ _ _ _ _ _ H Hr1) as [q [Q1 Q2]].
    pose proof (spells_clen _ _ _ Q1). pose proof (spells_clen _ _ _ So).
    eapply safe_imp; [|apply (IH c2); [|lia]].
    2:{ eapply sfx_trans; [eapply spells_sfx; exact So|]. eapply sfx_trans; [eapply spells_sfx; exact Q1|auto]. }
    cbn beta. intros c' [s' [K1 K2]]. exists (r :: q ++ o ++ s'). split.
    { cbn [spells]. split; [reflexivity|]. eapply spells_app; [exact Q1|]. eapply spells_app; eauto. }
    intros rest Hr. assert (E1 : r1 = o ++ s' ++ rest).
    { apply (rest_unique c1); auto. eapply rest_app; [exact So|]. eapply rest_app; eauto. }
    subst r1. apply (sx_pattern rest r d q o s'); auto.
    - destruct c1 as [p1|[|r1] p1 t1]; cbn [getn] in Eo; inversion Eo; subst; cbn [length]; lia.
    - intros ->. cbn [app] in Hr1. destruct c1 as [p1|[|r2] p1 t1]; cbn [getn] in Eo; inversion Eo; subst;
        pose proof (peek1_rest _ _ Hr1) as Hp; destruct (s' ++ rest); auto; discriminate Hp. }
  assert (Hdel : syntax_delimiter r = if (r =? C "/") || (r =? C "'") || (r =? C """") then Some r
                                      else if r =? C "=" then Some (C " ") else None).
  { unfold syntax_delimiter. change (mem_N r (T "/'""")) with ((r =? C "/") || ((r =? C "'") || ((r =? C """") || false))).
    rewrite orb_false_r, orb_assoc. reflexivity. }
  destruct ((r =? C "/") || (r =? C "'") || (r =? C """")); [apply Hpat; exact Hdel|].
  destruct (r =? C "="); [apply Hpat; exact Hdel|].
  destruct (r =? C "|") eqn:Eb. { apply N.eqb_eq in Eb. subst r. apply Hend. right. reflexivity. }
  apply N.eqb_neq in Eb.
  eapply safe_imp; [|apply (IH t); auto; lia]. cbn beta. intros c' [s [K1 K2]]. exists (r :: s).
  split. cbn [spells]. auto. intros rest Hr. apply sx_char; auto.
Qed.

End Args.
