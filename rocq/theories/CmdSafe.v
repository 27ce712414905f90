(** The command parser, part 5: every command function extends the script. *)
From Coq Require Import Lia ZifyBool ZifyNat ZifyN.
From Verif Require Import Base CharClass Reader Vnode Tokenizer ExprParser CmdTable CmdParser
  Cursor Grammar TokSafe ExprSafe Script Fault Safe CmdBase CmdArgs HeadProof ExtentProof CmdPieces CmdOpen.

Lemma ends_csafe {A} nv B (P : A -> Prop) (Q : cursor -> text -> Prop) o : ends P Q o ->
  (forall s x, Q s x -> sfx s B /\ report nv B s x) -> csafe nv B P o.
Proof. destruct o; cbn; auto; try contradiction. intros [s [E H]] HQ. destruct (HQ _ _ H). exists s. auto. Qed.

Section Safe.
Context (neovim : bool) (B : cursor) (HB : wf B).

(** What holds when the function [P] of a command is called, and after it. *)
Record pre (P : text) (k : ectx) (st : pstate) (w : place) (e0 : cursor) (f : frame) (fs : list frame)
  : Prop := {
  p_open : opens neovim B w e0 (f :: fs);
  p_gap : gap e0 (ec_line k);
  p_head : header neovim (ec_line k) (ec_cmd k) (ec_arg k) (cur st) (ec_x k) (ec_ea k);
  p_parser : c_parser (ec_x k) = P;
  p_ctx : ctx st = f :: fs;
  p_cache : cache_ok neovim (cache st) }.

Definition post (st st' : pstate) : Prop :=
  cache_ok neovim (cache st') /\ sfx (cur st') (cur st) /\
  exists w, opens neovim B w (cur st') (ctx st').

Definition cmd_safe (P : text) (g : ectx -> pstate -> outcome pstate) : Prop :=
  forall k st w e0 f fs, pre P k st w e0 f fs -> csafe neovim B (post st) (g k st).

(** Adding the finished node of a block to the enclosing one. *)
Lemma closed_safe st w1 e1 a c' n g gs : cache_ok neovim (cache st) ->
  opens neovim B w1 e1 (g :: gs) -> gap e1 a ->
  cmd_nodes neovim w1 a c' [n] -> sfx c' (cur st) ->
  post st (mkSt c' (add_body n g :: gs) (cache st)).
Proof.
  intros Hk H1 H2 H3 H4. split; [auto|split; [auto|]]. exists w1. cbn [ctx cur].
  apply (opens_extend neovim B w1 e1 g gs a c' [n]); auto.
Qed.

Section OneCmd.
Context (P : text) (k : ectx) (st : pstate) (w : place) (e0 : cursor) (f : frame) (fs : list frame).
Context (Hpre : pre P k st w e0 f fs).

Lemma pre_line : sfx (ec_line k) B.
Proof.
  destruct Hpre. eapply sfx_trans. apply gap_sfx; eauto. eapply opens_sfx; eauto.
Qed.
Lemma pre_cur_line : sfx (cur st) (ec_line k).
Proof.
  destruct Hpre. apply header_sfx in p_head0. destruct p_head0 as [H1 [H2 [H3 H4]]].
  eauto using sfx_trans.
Qed.
Lemma pre_cmd : sfx (ec_cmd k) B.
Proof.
  destruct Hpre. apply header_sfx in p_head0. destruct p_head0 as [H1 _].
  eapply sfx_trans; [exact H1|]. apply pre_line.
Qed.
Lemma pre_cur : sfx (cur st) B.
Proof. eapply sfx_trans. apply pre_cur_line. apply pre_line. Qed.
Lemma pre_headP : head neovim P (ec_line k) (ec_cmd k) (ec_arg k) (cur st) (ec_ea k).
Proof. destruct Hpre. exists (ec_x k). auto. Qed.
Lemma pre_due t c' : In (P, t) argument_kinds -> c' = cur st \/ blank (cur st) c' -> argument_due B t c'.
Proof. intros Hi Hb. eapply ar_head; [apply pre_line|apply pre_headP|exact Hi|exact Hb]. Qed.
Lemma pre_operand c' : In (P, false) argument_kinds -> c' = cur st \/ blank (cur st) c' -> operand_due B (argument_due B) c'.
Proof. intros Hi Hb. left. apply pre_due; auto. Qed.
Lemma pre_target c' : In (P, true) argument_kinds -> c' = cur st \/ blank (cur st) c' -> target_due B (argument_due B) c'.
Proof. intros Hi Hb. left. apply pre_due; auto. Qed.
Lemma sign_operand c' c0 s : sfx c0 B -> In s expression_signs -> spells s c0 c' -> operand_due B (argument_due B) c'.
Proof. intros. left. eapply ar_sign; eauto. Qed.
Ltac kinds := first [apply pre_operand|apply pre_target];
  [match goal with K : P = _ |- _ => rewrite K end; cbn [In argument_kinds]; tauto|auto].
Lemma pre_same : same_line (ec_line k) (cur st).
Proof.
  destruct Hpre. destruct p_head0. destruct h_name as [s [_ [_ [_ [b' [K1 K2]]]]]].
  eapply same_line_trans; [exact h_ab|]. eapply same_line_trans; [eapply spells_line; eauto|].
  eapply same_line_trans; eauto.
Qed.
Lemma pre_not_eof : is_eof (ec_line k) = false.
Proof.
  destruct Hpre. destruct (h_start _ _ _ _ _ _ _ p_head0) as [r [H _]].
  apply peek1_some in H. destruct H as [p [t ->]]. reflexivity.
Qed.
Lemma pre_misplaced {A} (Q : A -> Prop) msg :
  (forall ks, block_of (f_kind f) ks -> misplaced w ks P msg) -> csafe neovim B Q (raise msg (cmdpos k)).
Proof.
  intros H. apply csafe_report. apply pre_cmd. destruct (opens_pending _ _ _ _ _ (p_open _ _ _ _ _ _ _ Hpre)) as [f' [r [ks [E [Hp Hb]]]]].
  inversion E; subst f' r. eapply rp_misplaced; [exact Hp|apply (p_gap _ _ _ _ _ _ _ Hpre)|apply pre_headP|auto].
Qed.
Lemma pre_report msg s : argument_fault (cur st) s P msg -> report neovim B s msg.
Proof.
  intros H. destruct (opens_pending _ _ _ _ _ (p_open _ _ _ _ _ _ _ Hpre)) as [f' [r [ks [E [Hp Hb]]]]].
  inversion E; subst f' r. eapply rp_argument; [exact Hp|apply (p_gap _ _ _ _ _ _ _ Hpre)|apply pre_headP|auto].
Qed.
Lemma pre_argument {A} (Q : A -> Prop) msg s : sfx s B -> argument_fault (cur st) s P msg -> csafe neovim B Q (raise msg (getpos s)).
Proof. intros Hs H. apply csafe_report; auto. apply pre_report; auto. Qed.
Lemma ends_char c : ends_excmds (peek c) = true -> forall r, peek1 c = Some r -> r = C "|" \/ r = 34.
Proof.
  destruct c as [|[|r0] p t]; cbn; try discriminate. intros E r Hr. inversion Hr; subst.
  apply orb_true_iff in E. destruct E as [E|E]; apply N.eqb_eq in E; auto.
Qed.
Lemma pre_top : top_frame st = Ok f.
Proof. destruct Hpre. unfold top_frame. rewrite p_ctx0. reflexivity. Qed.

Lemma add_safe n c' : sfx c' (cur st) -> cmd_nodes neovim w (ec_line k) c' [n] ->
  csafe neovim B (post st) (add_node n (with_cur c' st)).
Proof.
  intros Hc Hn. destruct Hpre. unfold add_node, with_cur. cbn [ctx]. rewrite p_ctx0.
  cbn [csafe]. split; [auto|split; [auto|]]. cbn [cur ctx with_ctx]. exists w.
  apply (opens_extend neovim B w e0 f fs (ec_line k) c' [n]); auto.
Qed.

(** * Commands kept as text *)

Lemma pre_x : ea_cmd (ec_ea k) = Some (ec_x k).
Proof. destruct Hpre. eapply h_x; eauto. Qed.

(** The argument of :redir starts where its head ends. *)
Lemma redir_arg : c_name (ec_x k) = T "redir" -> ec_arg k = cur st.
Proof.
  intros E. destruct Hpre. destruct p_head0.
  destruct h_text as [lead [v [bang [white [opts [rest [b1 [b2 [H1 [H2 [H3 [H4 [H5 [H6 H7]]]]]]]]]]]]]].
  enough (opts = []) as -> by exact H5.
  assert (Hx : flag (T "ARGOPT") (ec_x k) || flag (T "EDITCMD") (ec_x k) = false).
  { destruct h_name as [s [_ [_ [Hn _]]]].
    assert (Hin : forall y, In y (builtin_commands ++ neovim_additional_commands) -> c_name y = T "redir" ->
      flag (T "ARGOPT") y || flag (T "EDITCMD") y = false).
    { assert (Hall : forallb (fun y => negb (text_eqb (c_name y) (T "redir")) ||
        negb (flag (T "ARGOPT") y || flag (T "EDITCMD") y)) (builtin_commands ++ neovim_additional_commands) = true)
        by (vm_compute; reflexivity).
      intros y Hy Ey. rewrite forallb_forall in Hall. specialize (Hall y Hy). rewrite Ey in Hall.
      apply negb_true_iff in Hall. exact Hall. }
    assert (Hfirst : forall u, first_match neovim u (ec_x k) -> In (ec_x k) (builtin_commands ++ neovim_additional_commands)).
    { intros u [[q [r [Hq _]]] _]. assert (Hy : In (ec_x k) (command_table neovim)).
      { rewrite Hq. apply in_or_app. right; left; auto. }
      unfold command_table in Hy. apply in_app_or in Hy. apply in_or_app.
      destruct Hy as [Hy|Hy]; auto. destruct neovim; auto. contradiction. }
    inversion Hn; subst.
    - apply Hin; eauto.
    - match goal with K : user_command _ = ec_x k |- _ => rewrite <- K in E end. cbn in E. subst s. discriminate.
    - apply Hin; eauto. }
  apply orb_false_iff in Hx. destruct Hx as [X1 X2].
  destruct (ht_opts _ _ _ _ _ _ _ _ _ H7) as [os [t1 [t2 [t3 [-> [O1 [_ [_ [_ [_ [_ [O3 O4]]]]]]]]]]]].
  unfold flag in *. rewrite X1 in O1. destruct O1 as [-> ->]. rewrite X2 in *. cbn [andb] in O4. inversion O4; subst; try discriminate.
  rewrite E in O3. inversion O3; subst; auto.
  - match goal with K : In _ _ |- _ => cbn in K; destruct K as [K|[K|[]]]; discriminate K end.
  - discriminate.
  - discriminate.
  - discriminate.
Qed.

Definition text_post (st' : pstate) : Prop :=
  cache st' = cache st /\ sfx (cur st') (cur st) /\ exists z, sfx z (cur st) /\ gap z (cur st') /\
    (listing P (cur st) -> kept P (ec_ea k) (cur st) z (cur st')) /\
    ctx st' = add_body_all [VExcmd (cmdpos k) (ec_ea k) (getstr (ec_line k) z)] f :: fs.

Lemma common_text : safe B text_post (parse_cmd_common k st).
Proof.
  unfold parse_cmd_common.
  apply (safe_bind _ (fun '(z, c1) => exists s v rest, spells s (cur st) z /\ spells v z c1 /\
    rest_of c1 rest /\ text_of expression_text (ec_x k) (ea_usefilter (ec_ea k)) s v rest)).
  { unfold has_flag. fold (flag (T "TRLBAR") (ec_x k)).
    fold (takes_bar (ec_x k) (ea_usefilter (ec_ea k))). destruct (takes_bar _ _) eqn:Eb.
    - assert (Ef : ea_usefilter (ec_ea k) = false).
      { apply andb_true_iff in Eb. destruct Eb as [_ Eb]. apply negb_true_iff in Eb. exact Eb. }
      rewrite Ef in *. apply separate_ok; auto. apply pre_cur.
      intros E. rewrite (redir_arg E). reflexivity.
    - cbn [safe]. destruct (getn_all (cur st)) as [s c1] eqn:E. apply getn_all_spells in E.
      destruct E as [E1 E2]. cbn [snd]. exists s, [], []. split; [exact E1|]. split; [reflexivity|].
      split; [exists c1; split; [reflexivity|exact E2]|]. apply to_line. exact Eb. }
  intros [z c1] [s [v [rest [H1 [H2 [H3 H4]]]]]]. pose proof pre_x as Hx. destruct Hpre.
  unfold add_node, with_cur. cbn [ctx]. rewrite p_ctx0.
  cbn [safe]. pose proof (spells_sfx _ _ _ H1). pose proof (spells_sfx _ _ _ H2).
  split; [auto|split]. cbn [cur with_ctx]. eapply sfx_trans; eauto.
  exists z. split; [auto|]. cbn [with_ctx cur ctx]. split; [|split; [|auto]].
  - apply (gap_spells iswhite v); auto.
    inversion H4; subst; auto. apply all_white_iff.
    match goal with K : if _ then _ else _ |- _ => destruct (flag (T "NOTRLCOM") (ec_x k)); [subst v|apply K] end.
    intros ? [].
  - intros Hl. exists (ec_x k). split; [exact Hx|]. eapply ex_text; eauto.
Qed.

Lemma text_done st' : In P excmd_parsers -> listing P (cur st) -> text_post st' -> post st st'.
Proof.
  intros HP Hl [H1 [H2 [z [H3 [H4 [H6 H5]]]]]]. pose proof pre_headP as Hh. destruct Hpre.
  split; [|split; auto]. rewrite H1; auto. exists w. rewrite H5.
  eapply opens_extend; eauto. eapply cn_excmd; eauto.
Qed.

Lemma common_safe : In P excmd_parsers -> listing P (cur st) -> csafe neovim B (post st) (parse_cmd_common k st).
Proof.
  intros HP Hl. apply csafe_of_safe. eapply safe_imp; [|apply common_text]. intros. apply text_done; auto.
Qed.

(** The text up to a later place, with following lines. *)
Lemma add_text z c' : In P excmd_parsers -> extent P (ec_x k) (ea_usefilter (ec_ea k)) (cur st) z c' ->
  sfx z (cur st) -> gap z c' ->
  csafe neovim B (post st) (add_node (VExcmd (cmdpos k) (ec_ea k) (getstr (ec_line k) z)) (with_cur c' st)).
Proof.
  intros HP He Hz Hg. apply add_safe. apply gap_sfx in Hg. eapply sfx_trans; eauto.
  eapply cn_excmd; eauto. apply pre_headP. exists (ec_x k). split; [apply pre_x|exact He].
Qed.

Lemma line_rest l c1 : getn_all (ec_line k) = (l, c1) ->
  exists p t, c1 = Cons EOL p t /\ spells l (ec_line k) c1 /\ sfx c1 (cur st).
Proof.
  intros E. assert (Hw : wf (ec_line k)) by exact (wf_sfx _ _ pre_line HB).
  destruct (getall_eol _ _ _ Hw pre_not_eof E) as [p [t Et]]. exists p, t. split; auto.
  apply getn_all_spells in E. destruct E as [E1 E2]. split; auto.
  destruct pre_same as [s Hs]. eapply line_end_sfx; eauto.
Qed.

(** The rest of the line after the head. *)
Lemma head_rest l c1 : getn_all (ec_line k) = (l, c1) -> exists s, spells s (cur st) c1 /\ at_end c1.
Proof.
  intros E. apply getn_all_spells in E. destruct E as [E1 E2]. destruct pre_same as [s0 Hs].
  destruct (rest_exists (cur st)) as [s [z [S1 S2]]].
  assert (l = s0 ++ s).
  { apply (rest_unique (ec_line k)). exists c1; auto. exists z. split; auto. eapply spells_app; eauto. }
  subst l. exists s. split; [|exact E2]. destruct (spells_parts _ _ _ _ E1) as [m [M1 M2]].
  rewrite (spells_fun _ _ _ _ Hs M1). exact M2.
Qed.

Lemma lines_done m l c1 p t ls c2 : getn_all (ec_line k) = (l, c1) -> c1 = Cons EOL p t ->
  In P excmd_parsers -> taken_post m p t (ls, c2) ->
  (forall z, lines_taken m c1 z c2 -> extent P (ec_x k) (ea_usefilter (ec_ea k)) (cur st) z c2) ->
  csafe neovim B (post st) (add_node (VExcmd (cmdpos k) (ec_ea k) (join_lines (l :: ls))) (with_cur c2 st)).
Proof.
  intros E Et HP [z [Z1 Z2]] He. destruct (line_rest _ _ E) as [p' [t' [E' [Sp Sf]]]].
  rewrite join_concat, <- Z2. rewrite <- Et in *. rewrite <- (spells_getstr _ _ _ Sp).
  pose proof (lines_taken_sfx _ _ _ _ Z1) as Sz.
  rewrite <- getstr_app; [|eapply spells_sfx; eauto|auto].
  apply add_text; auto. eapply sfx_trans; eauto. eapply lines_taken_gap; eauto.
Qed.

Lemma eol_tail_wf l c1 p t : getn_all (ec_line k) = (l, c1) -> c1 = Cons EOL p t -> wf t.
Proof.
  intros E Et. destruct (line_rest _ _ E) as [p' [t' [E' [Sp Sf]]]]. subst c1.
  apply (wf_tail EOL p). eapply wf_sfx; [|exact HB]. eapply sfx_trans; [exact Sf|apply pre_cur].
Qed.

Lemma append_safe : In P [T "parse_cmd_append"; T "parse_cmd_insert"] -> csafe neovim B (post st) (parse_cmd_append k st).
Proof.
  intros HP. unfold parse_cmd_append, readline.
  assert (HPe : In P excmd_parsers) by (cbn in *; tauto).
  destruct (getn_all (ec_line k)) as [l c1] eqn:E. destruct (head_rest _ _ E) as [s [Hs _]].
  destruct (line_rest _ _ E) as [p [t [Et _]]]. rewrite Et. cbn [get snd].
  csafe_b. apply csafe_of_safe. apply (until_marker_ok B (T ".") (S (clen t)) p t).
  eapply eol_tail_wf; eauto. lia.
  intros [ls c2] H. eapply lines_done; eauto. intros z Hz. eapply ex_append; eauto.
Qed.

Lemma loadkeymap_safe : P = T "parse_cmd_loadkeymap" -> csafe neovim B (post st) (parse_cmd_loadkeymap k st).
Proof.
  intros HP. unfold parse_cmd_loadkeymap, readline.
  assert (HPe : In P excmd_parsers) by (rewrite HP; cbn; tauto).
  destruct (getn_all (ec_line k)) as [l c1] eqn:E. destruct (head_rest _ _ E) as [s [Hs _]].
  destruct (line_rest _ _ E) as [p [t [Et _]]]. rewrite Et. cbn [get snd].
  csafe_b. apply csafe_of_safe. apply (read_all_ok B (S (clen t)) p t).
  eapply eol_tail_wf; eauto. lia.
  intros [ls c2] H. eapply lines_done; eauto. intros z Hz. eapply ex_keymap; eauto.
Qed.

Lemma lua_safe : In P script_parsers -> csafe neovim B (post st) (parse_cmd_lua k st).
Proof.
  intros HP. unfold parse_cmd_lua. cbv zeta.
  assert (HPe : In P excmd_parsers) by (cbn in *; tauto).
  destruct (getn_all (ec_line k)) as [l c1] eqn:E. destruct (head_rest _ _ E) as [s [Hs Ha]].
  destruct (line_rest _ _ E) as [p [t [Et [Sp Sf]]]].
  assert (Hrest : rest_of (cur st) s) by (exists c1; auto).
  destruct (rest_exists (skip_white (cur st))) as [s1 Hs1].
  destruct (skip_longest iswhite (cur st) s1 Hs1) as [w1 [W1 [W2 W3]]]. apply all_white_iff in W2.
  fold (skip_white (cur st)) in W1.
  assert (Es : s = w1 ++ s1). { apply (rest_unique (cur st)); auto. eapply rest_app; eauto. }
  destruct (text_eqb (peekn 2 (skip_white (cur st))) (T "<<")) eqn:Ep.
  - apply text_eqb_eq in Ep. apply peekn_getn in Ep. destruct Ep as [c2 [Eg Sg]]. cbn [length] in Eg.
    change (length (T "<<")) with 2%nat in Eg. rewrite Eg. cbn [snd].
    destruct (rest_exists (skip_white c2)) as [m Hm].
    destruct (skip_longest iswhite c2 m Hm) as [w2 [V1 [V2 V3]]]. apply all_white_iff in V2.
    fold (skip_white c2) in V1.
    assert (Es1 : s1 = T "<<" ++ w2 ++ m).
    { apply (rest_unique (skip_white (cur st))); auto. eapply rest_app; [exact Sg|]. eapply rest_app; eauto. }
    assert (Em : fst (readline (skip_white c2)) = m).
    { unfold readline. destruct (getn_all (skip_white c2)) as [m0 e0'] eqn:E0. cbn [fst].
      apply getn_all_spells in E0. destruct E0. apply (rest_unique (skip_white c2)); auto. exists e0'; auto. }
    rewrite Em, Et. cbn [get snd].
    csafe_b. apply csafe_of_safe.
    apply (until_marker_ok B (if is_nil m then T "." else m) (S (clen t)) p t).
    eapply eol_tail_wf; eauto. lia.
    intros [ls c3] H. eapply lines_done; eauto. intros z Hz.
    apply (ex_script P _ _ (cur st) w1 w2 m c1 z c3); auto.
    + rewrite <- Es1, <- Es. exact Hs.
    + destruct m; exact Hz.
  - rewrite <- (spells_getstr _ _ _ Sp). apply add_text; auto; [|constructor].
    apply (ex_script_line P _ _ (cur st) s c1); auto.
    intros [w' [t' [K1 K2]]]. rewrite Es in K2.
    assert (s1 = T "<<" ++ t').
    { apply (longest_fun iswhite w1 w' s1 (T "<<" ++ t')); auto; apply all_white_iff; auto. }
    subst s1. rewrite (peekn_rest 2 _ _ Hs1) in Ep. discriminate Ep.
Qed.

Lemma finish_safe : P = T "parse_cmd_finish" -> csafe neovim B (post st) (parse_cmd_finish k st).
Proof.
  intros HP. unfold parse_cmd_finish. csafe_b. apply csafe_of_safe, common_text.
  intros st1 Ht. destruct Ht as [H1 [H2 [z [H3 [H4 [H6 H5]]]]]] eqn:EHt. clear EHt.
  assert (Hkept : kept (T "parse_cmd_finish") (ec_ea k) (cur st) z (cur st1)).
  { rewrite <- HP. apply H6. rewrite HP. apply li_plain. cbn; tauto. }
  unfold top_frame. rewrite H5. cbn [bind]. unfold add_body_all at 1. cbn [f_kind].
  assert (Hd : f_kind f <> FTop -> csafe neovim B (post st) (Ok st1)).
  { intros Hk. cbn [csafe]. pose proof pre_headP as Hh. destruct Hpre.
    split; [|split; auto]. rewrite H1; auto. exists w. rewrite H5.
    eapply opens_extend; eauto. eapply cn_finish_inner; eauto. eapply opens_inner; eauto.
    rewrite HP in Hh. exact Hh. }
  destruct (f_kind f) eqn:Ek; try (apply Hd; discriminate).
  pose proof pre_headP as Hh. destruct Hpre.
  destruct (opens_top _ _ _ _ _ _ p_open0 Ek) as [Hw [_ _]].
  assert (S1 : sfx (seek_end0 (cur st1)) (cur st1)).
  { clear. induction (cur st1); cbn [seek_end0]; constructor; auto. }
  assert (E1 : is_eof (seek_end0 (cur st1)) = true).
  { clear. induction (cur st1); cbn [seek_end0]; auto. }
  cbn [csafe]. unfold post. cbn [with_cur cache cur ctx]. split; [rewrite H1; auto|]. split.
  eapply sfx_trans; eauto. exists w. rewrite H5.
  eapply opens_extend; eauto. eapply cn_finish; eauto. subst w; reflexivity.
  rewrite HP in Hh. exact Hh. eapply sfx_trans; [exact S1|]. apply gap_sfx; auto.
Qed.

Lemma wincmd_safe : P = T "parse_wincmd" -> csafe neovim B (post st) (parse_wincmd k st).
Proof.
  intros HP. unfold parse_wincmd. pose proof pre_cur as Hc.
  assert (HPe : In P excmd_parsers) by (rewrite HP; cbn; tauto).
  destruct (getn 1 (cur st)) as [s c1] eqn:E. pose proof (getn_spells _ _ _ _ E) as Es.
  pose proof (spells_sfx _ _ _ Es) as Sx.
  assert (S1 : sfx c1 B) by (eapply sfx_trans; eauto).
  destruct s as [|r s].
  { apply pre_argument; auto. rewrite HP. cbn in Es. apply af_window; auto. subst c1.
    destruct (cur st) as [|[|r0] p0 t0]; cbn [getn] in E; inversion E; reflexivity. }
  assert (s = []).
  { destruct (cur st) as [|[|r0] p0 t0]; cbn [getn] in E; inversion E. reflexivity. }
  subst s.
  apply (csafe_bind _ _ (fun c2 => exists s, window_key s /\ spells s (cur st) c2)).
  { destruct ((r =? C "g") || (r =? 7)) eqn:Eg.
    2:{ cbn [csafe]. exists [r]. split; [|exact Es]. apply orb_false_iff in Eg. destruct Eg as [G1 G2].
        apply N.eqb_neq in G1. apply N.eqb_neq in G2. apply wk_one; auto. }
    destruct (getn 1 c1) as [s2 c'] eqn:E2. pose proof (getn_spells _ _ _ _ E2) as Es2.
    pose proof (spells_sfx _ _ _ Es2) as Sx2.
    assert (S2 : sfx c' B) by (eapply sfx_trans; eauto).
    assert (Hg : r = C "g" \/ r = 7).
    { apply orb_true_iff in Eg. destruct Eg as [G|G]; apply N.eqb_eq in G; auto. }
    destruct s2 as [|r2 s2].
    { apply pre_argument; auto. rewrite HP. cbn in Es2. subst c'. eapply af_key; eauto. left. split; [reflexivity|].
      destruct c1 as [|[|r0] p0 t0]; cbn [getn] in E2; inversion E2; reflexivity. }
    destruct (iswhite r2) eqn:Ew.
    { apply pre_argument; auto. rewrite HP. eapply af_key; eauto. right. exists r2. split; [|auto].
      destruct c1 as [|[|r0] p0 t0]; cbn [getn] in E2; inversion E2; subst. cbn. auto. }
    assert (s2 = []).
    { destruct c1 as [|[|r0] p0 t0]; cbn [getn] in E2; inversion E2. reflexivity. }
    subst s2. cbn [csafe]. exists [r; r2]. split; [|exact (spells_app [r] [r2] _ _ _ Es Es2)].
    apply wk_two; auto. }
  intros c2 [s [Hk Hs]]. cbv zeta. assert (S2 : sfx c2 (cur st)) by (eapply spells_sfx; eauto).
  destruct (ends_excmds (peek (skip_white c2))) eqn:E3; cbn [negb].
  - destruct (rest_exists (skip_white c2)) as [m Hm].
    destruct (skip_longest iswhite c2 m Hm) as [w2 [V1 [V2 V3]]]. apply all_white_iff in V2.
    apply add_text; auto; [|apply gap_white]. eapply ex_wincmd; eauto.
    apply (ends_iff _ _ Hm). revert E3. destruct (skip_white c2) as [|[|r0] p0 t0]; auto.
  - destruct (rest_exists (skip_white c2)) as [m Hm].
    apply pre_argument. eapply sfx_trans; [apply skip_while_sfx|]. eapply sfx_trans; eauto.
    rewrite HP. eapply af_more; eauto. apply blank_skip. intros K. apply (ends_iff _ _ Hm) in K.
    revert E3 K. destruct (skip_white c2) as [|[|r0] p0 t0]; cbn; congruence.
Qed.

Lemma syntax_cmd_safe : P = T "parse_cmd_syntax" -> csafe neovim B (post st) (parse_cmd_syntax k st).
Proof.
  intros HP. unfold parse_cmd_syntax. csafe_b. apply csafe_of_safe.
  apply (syntax_ok B (S (clen (cur st))) (cur st)). apply pre_cur. lia.
  intros c1 [s [H1 H2]]. destruct (rest_exists c1) as [rest Hr].
  apply add_text; auto. rewrite HP; cbn; tauto.
  eapply ex_syntax; eauto. eapply spells_sfx; eauto. constructor.
Qed.

(** The forms of :let, :const and :function without arguments. *)
Lemma listing_none : In P [T "parse_cmd_let"; T "parse_cmd_const"; T "parse_cmd_function"] ->
  ends_excmds (peek (skip_white (cur st))) = true -> listing P (cur st).
Proof.
  intros HP E. eapply li_none; [exact HP|apply blank_skip|].
  intros r Hr. revert E Hr. destruct (skip_white (cur st)) as [|[|r0] p0 t0]; cbn; try discriminate.
  intros E Hr. inversion Hr; subst. apply orb_true_iff in E. destruct E as [E|E]; apply N.eqb_eq in E; auto.
Qed.

(** * Simple commands *)

Lemma delfunction_safe : P = T "parse_cmd_delfunction" -> csafe neovim B (post st) (parse_cmd_delfunction k st).
Proof.
  intros HP. unfold parse_cmd_delfunction. pose proof pre_headP as Hh. rewrite HP in Hh.
  csafe_b. apply csafe_of_safe.
  apply (lvalue_func_safe B HB). apply pre_cur. kinds. intros [v c1] [H1 H2].
  destruct (dlval_shrinks _ _ _ H1). apply add_safe; auto. eapply cn_delfunction; eauto.
Qed.

Lemma return_safe : P = T "parse_cmd_return" -> csafe neovim B (post st) (parse_cmd_return k st).
Proof.
  intros HP. unfold parse_cmd_return.
  assert (Hf : in_context is_function st = pl_fun w).
  { destruct Hpre. unfold in_context. rewrite p_ctx0. eapply opens_fun; eauto. }
  rewrite Hf. destruct (pl_fun w) eqn:Ew; cbn [negb]; [|apply pre_misplaced; intros; rewrite HP; constructor; auto].
  pose proof pre_headP as Hh. rewrite HP in Hh.
  pose proof (blank_skip (cur st)) as Hb. pose proof (blank_sfx _ _ Hb) as Hs.
  cbv zeta. destruct (_ || _).
  - csafe_b. apply csafe_of_safe. apply (parse_expr_safe B (skip_white (cur st))); auto.
    eapply sfx_trans; [exact Hs|apply pre_cur]. kinds. intros [v c1] Hv. cbn [is_expr_at] in Hv.
    destruct (dexpr_shrinks _ _ _ _ Hv). apply add_safe. eapply sfx_trans; eauto.
    eapply cn_return; eauto. eapply dexpr_blank; eauto.
  - apply add_safe; auto. eapply cn_return0; eauto.
Qed.

Lemma call_safe : P = T "parse_cmd_call" -> csafe neovim B (post st) (parse_cmd_call k st).
Proof.
  intros HP. unfold parse_cmd_call. pose proof pre_headP as Hh. rewrite HP in Hh.
  pose proof (blank_skip (cur st)) as Hb. pose proof (blank_sfx _ _ Hb) as Hs.
  assert (HsB : sfx (skip_white (cur st)) B) by (eapply sfx_trans; [exact Hs|apply pre_cur]).
  cbv zeta. destruct (ends_excmds (peek (skip_white (cur st)))) eqn:Ee.
  { apply pre_argument; auto. rewrite HP. eapply af_required; eauto. apply ends_char; auto. }
  csafe_b. apply csafe_of_safe. apply (parse_expr_safe B (skip_white (cur st))); auto. kinds.
  intros [v c1] Hv. cbn [is_expr_at] in Hv. destruct (dexpr_shrinks _ _ _ _ Hv).
  destruct (dexpr_pos _ _ _ _ Hv) as [s [P1 P2]].
  assert (Hbad : (forall p f args, v <> VCall p f args) -> csafe neovim B (post st) (raise (T "Not an function call") (vpos v))).
  { intros K. rewrite P2. apply pre_argument. eapply sfx_trans; eauto. rewrite HP. eapply af_call; eauto.
    eapply dexpr_blank; eauto. eapply sfx_trans; eauto. }
  destruct v; try (apply Hbad; discriminate).
  apply add_safe. eapply sfx_trans; eauto. eapply cn_call; eauto. eapply dexpr_blank; eauto.
Qed.

Lemma heredoc_safe lhs ls rs c1 d1 c2 : P = T "parse_cmd_let" ->
  dlhs target (cur st) lhs ls rs c1 -> blank c1 d1 -> spells (T "=<<") d1 c2 ->
  csafe neovim B (post st) (let* '(h, st1) := parse_heredoc k (with_cur (skip_white c2) st) in
                     add_node (VLet (cmdpos k) (ec_ea k) (T "=<<") lhs ls rs (Some h)) st1).
Proof.
  intros HP H1 H2 H3. pose proof pre_headP as Hh. rewrite HP in Hh.
  assert (Sx : sfx c2 (cur st)).
  { apply dlhs_sfx in H1. apply blank_sfx in H2. apply spells_sfx in H3. eauto using sfx_trans. }
  pose proof pre_cur as Hc. assert (SxB : sfx c2 B) by (eapply sfx_trans; eauto).
  pose proof (blank_skip c2) as Hb. pose proof (blank_sfx _ _ Hb) as Hs.
  assert (HsB : sfx (skip_white c2) B) by (eapply sfx_trans; eauto).
  unfold parse_heredoc. cbn [with_cur cur].
  eapply csafe_bind.
  { instantiate (1 := fun '(h, st1) => cache st1 = cache st /\ sfx (cur st1) (cur st) /\
      exists ws m c3 cms c4 body, h = VHeredoc (cmdpos k) ws m body /\ dhwords c2 ws m c3 /\
        dtrail c3 cms c4 /\ dhlines m c4 body (cur st1) /\ ctx st1 = add_body_all cms f :: fs).
    csafe_b. apply csafe_of_safe. apply (hwords_safe B (S (clen (skip_white c2))) (skip_white c2)); auto.
    intros [[ws m] c3] [S3 [H4 Hnm]].
    assert (S3B : sfx c3 B) by (eapply sfx_trans; eauto).
    destruct (is_nil m) eqn:En.
    { apply pre_argument; auto. rewrite HP. destruct m; [|discriminate]. eapply af_marker; eauto.
      specialize (Hnm eq_refl). clear -Hnm Hb. inversion Hnm; subst; [eapply nm_none|eapply nm_word];
        try (eapply blank_blank; [exact Hb|eassumption]); eauto. }
    assert (Hm : m <> []) by (intros ->; discriminate En). specialize (H4 Hm).
    assert (H5 : dhwords c2 ws m c3).
    { clear -H4 Hb. inversion H4; subst; [eapply hw_marker|eapply hw_word];
        try (eapply blank_blank; [exact Hb|eassumption]); eauto. }
    csafe_b. apply csafe_of_safe.
    apply (trail_safe B HB (with_cur c3 (with_cur (skip_white c2) st)) f fs); auto.
    { destruct Hpre; auto. }
    intros st1 [E1 [cms [T1 T2]]]. cbn [with_cur cur ctx cache] in E1, T1.
    assert (S4 : sfx (cur st1) c3) by (eapply dtrail_sfx; eauto).
    csafe_b. eapply (ends_csafe neovim B). apply (hlines_ends B HB m (S (clen (cur st1))) (cur st1)). eapply sfx_trans; eauto. lia.
    { intros s x [-> [K1 K2]]. assert (sfx s B) by (eapply sfx_trans; [exact K2|]; eapply sfx_trans; eauto). split; [auto|].
      apply pre_report. rewrite HP. eapply af_end; eauto. }
    intros [body c5] H6. cbn [csafe]. cbn [with_cur cur ctx cache]. split; [auto|]. split.
    - apply dhlines_sfx in H6. eapply sfx_trans; [exact H6|]. eapply sfx_trans; [exact S4|].
      eapply sfx_trans; [exact S3|]. eapply sfx_trans; [exact Hs|exact Sx].
    - exists ws, m, c3, cms, (cur st1), body. repeat (split; auto). }
  intros [h st1] [E1 [S1 [ws [m [c3 [cms [c4 [body [-> [K1 [K2 [K3 K4]]]]]]]]]]]].
  unfold add_node. rewrite K4. cbn [csafe]. destruct Hpre.
  split; [cbn; rewrite E1; auto|]. split; [auto|]. cbn [with_ctx cur ctx]. exists w.
  pose proof (cn_heredoc neovim w _ _ _ _ _ _ _ _ _ _ _ _ _ _ _ _ _ _ Hh H1 H2 H3 K1 K2 K3) as Hn.
  pose proof (opens_extend neovim B w e0 f fs _ _ _ p_open0 p_gap0 Hn) as Ho.
  unfold add_body_all, add_body in *. cbn [f_kind f_pos f_ea f_body] in *. rewrite app_assoc in Ho.
  exact Ho.
Qed.

Lemma let_safe : P = T "parse_cmd_let" -> csafe neovim B (post st) (parse_cmd_let k st).
Proof.
  intros HP. unfold parse_cmd_let. pose proof pre_headP as Hh. rewrite HP in Hh.
  assert (HPe : In P excmd_parsers) by (rewrite HP; cbn; tauto).
  pose proof (blank_skip (cur st)) as Hb. pose proof (blank_sfx _ _ Hb) as Hs.
  assert (HsB : sfx (skip_white (cur st)) B) by (eapply sfx_trans; [exact Hs|apply pre_cur]).
  cbv zeta. destruct (ends_excmds (peek (skip_white (cur st)))) eqn:Enone.
  { apply common_safe; auto. apply listing_none; auto. rewrite HP; cbn; tauto. }
  csafe_b. apply csafe_of_safe. apply (lhs_safe B HB target parse_lvalue (skip_white (cur st))); auto. kinds.
  { intros. apply lvalue_safe; auto. }
  intros [[[lhs ls] rs] c1] Hl. apply (dlhs_blank _ _ _ _ _ _ (cur st)) in Hl; auto.
  assert (S1 : sfx c1 (cur st)) by (eapply dlhs_sfx; eauto).
  pose proof (blank_skip c1) as Hb1. pose proof (blank_sfx _ _ Hb1) as Hs1.
  set (c2 := skip_white c1) in *.
  assert (S2 : sfx c2 (cur st)) by (eapply sfx_trans; eauto).
  set (s2 := if text_eqb (peekn 2 c2) (T "..") || text_eqb (peekn 2 c2) (T "=<")
             then peekn 3 c2 else peekn 2 c2).
  assert (Hs2 : exists c3, getn (length s2) c2 = (s2, c3) /\ spells s2 c2 c3).
  { subst s2. destruct (_ || _); eapply peekn_getn; reflexivity. }
  assert (Hlist : (ends_excmds1 (peek1 c2) ||
       (negb (is_assign_op s2) && negb (text_eqb s2 (T "=<<")) && negb (text_eqb (peekn 1 c2) (T "=")))) = true ->
       listing P (cur st)).
  { intros K. rewrite HP. eapply li_let; [exact Hl|exact Hb1|]. intros op d1 Ho So.
    subst s2. clear -K Ho So.
    destruct (rest_exists d1) as [r0 Hr0]. pose proof (rest_app _ _ _ _ So Hr0) as Hr.
    rewrite !(peekn_rest _ _ _ Hr), (peek1_rest _ _ Hr) in K. clear -K Ho.
    apply orb_true_iff in K. rewrite !andb_true_iff in K.
    cbn [In assign_ops] in Ho. repeat destruct Ho as [<-|Ho]; try contradiction;
      (destruct K as [K|[[K1 K2] K3]]; [discriminate K|]); first [discriminate K3|discriminate K1]. }
  clearbody s2. destruct Hs2 as [c3 [Eg Sp]]. rewrite Eg. cbn [snd].
  assert (S3 : sfx c3 (cur st)) by (eapply sfx_trans; [eapply spells_sfx; eauto|auto]).
  destruct (ends_excmds1 (peek1 c2) || _) eqn:Eend. { apply common_safe; auto. }
  destruct (is_assign_op s2) eqn:Eop.
  - csafe_b. apply csafe_of_safe. apply (parse_expr_safe B c3); auto.
    eapply sfx_trans; [exact S3|apply pre_cur].
    { eapply sign_operand; [|..|exact Sp]. eapply sfx_trans; [exact S2|apply pre_cur].
      unfold is_assign_op in Eop. apply mem_text_In in Eop. cbn [In expression_signs] in *. tauto. } intros [v c4] Hv. cbn [is_expr_at] in Hv.
    destruct (dexpr_shrinks _ _ _ _ Hv). apply add_safe. eapply sfx_trans; eauto.
    eapply cn_let; eauto. unfold is_assign_op in Eop. apply mem_text_In in Eop.
    unfold assign_ops. cbn [In] in *. tauto.
  - destruct (text_eqb s2 (T "=<<")) eqn:Eh.
    + apply text_eqb_eq in Eh. subst s2. eapply heredoc_safe; eauto.
    + destruct (text_eqb (peekn 1 c2) (T "=")) eqn:E1.
      * assert (E1' : peekn 1 c2 = T "=") by (apply text_eqb_eq; auto). rewrite E1'.
        destruct (peekn_getn _ _ _ E1') as [c4 [Eg4 Sp4]]. cbn [length] in Eg4. 
        change (length (T "=")) with 1%nat in Eg4. rewrite Eg4. cbn [snd].
        assert (S4 : sfx c4 (cur st)) by (eapply sfx_trans; [eapply spells_sfx; eauto|auto]).
        csafe_b. apply csafe_of_safe. apply (parse_expr_safe B c4); auto.
        eapply sfx_trans; [exact S4|apply pre_cur].
        { eapply sign_operand; [|..|exact Sp4]. eapply sfx_trans; [exact S2|apply pre_cur]. cbn [In expression_signs]. tauto. }
        intros [v c5] Hv. cbn [is_expr_at] in Hv.
        destruct (dexpr_shrinks _ _ _ _ Hv). apply add_safe. eapply sfx_trans; eauto.
        eapply cn_let; eauto. unfold assign_ops. cbn [In]. tauto.
      * exfalso. cbn [negb andb] in Eend. rewrite orb_true_r in Eend. discriminate.
Qed.

Lemma const_safe : P = T "parse_cmd_const" -> csafe neovim B (post st) (parse_cmd_const k st).
Proof.
  intros HP. unfold parse_cmd_const. pose proof pre_headP as Hh. rewrite HP in Hh.
  assert (HPe : In P excmd_parsers) by (rewrite HP; cbn; tauto).
  pose proof (blank_skip (cur st)) as Hb. pose proof (blank_sfx _ _ Hb) as Hs.
  assert (HsB : sfx (skip_white (cur st)) B) by (eapply sfx_trans; [exact Hs|apply pre_cur]).
  cbv zeta. destruct (ends_excmds (peek (skip_white (cur st)))) eqn:Enone.
  { apply common_safe; auto. apply listing_none; auto. rewrite HP; cbn; tauto. }
  csafe_b. apply csafe_of_safe.
  apply (lhs_safe B HB const_target parse_constlvalue (skip_white (cur st))); auto. kinds.
  { intros. apply constlvalue_safe; auto. }
  intros [[[lhs ls] rs] c1] Hl. apply (dlhs_blank _ _ _ _ _ _ (cur st)) in Hl; auto.
  assert (S1 : sfx c1 (cur st)) by (eapply dlhs_sfx; eauto).
  pose proof (blank_skip c1) as Hb1. pose proof (blank_sfx _ _ Hb1) as Hs1.
  set (c2 := skip_white c1) in *.
  assert (S2 : sfx c2 (cur st)) by (eapply sfx_trans; eauto).
  destruct (ends_excmds1 (peek1 c2) || negb (o_is (peek1 c2) (C "="))) eqn:Eend.
  { apply common_safe; auto. rewrite HP. eapply li_const; [exact Hl|exact Hb1|].
    intros K. rewrite K in Eend. discriminate Eend. }
  apply orb_false_iff in Eend. destruct Eend as [_ Eend]. apply negb_false_iff in Eend.
  apply o_is_peek1 in Eend. destruct Eend as [p [t Et]].
  assert (Eg : getn 1 c2 = (T "=", t)) by (rewrite Et; reflexivity). rewrite Eg. cbn [snd].
  assert (S4 : sfx t (cur st)). { rewrite Et in S2. eapply sfx_tail; eauto. }
  csafe_b. apply csafe_of_safe. apply (parse_expr_safe B t); auto.
  eapply sfx_trans; [exact S4|apply pre_cur].
  { eapply (sign_operand _ c2 (T "=")). eapply sfx_trans; [exact S2|apply pre_cur]. cbn [In expression_signs]. tauto.
    rewrite Et. cbn. auto. }
  intros [v c5] Hv. cbn [is_expr_at] in Hv.
  destruct (dexpr_shrinks _ _ _ _ Hv). apply add_safe. eapply sfx_trans; eauto.
  eapply cn_const; eauto. rewrite Et. cbn. auto.
Qed.

Lemma unlet_safe : P = T "parse_cmd_unlet" -> csafe neovim B (post st) (parse_cmd_unlet k st).
Proof.
  intros HP. unfold parse_cmd_unlet. pose proof pre_headP as Hh. rewrite HP in Hh.
  csafe_b. apply csafe_of_safe. apply (lvaluelist_safe B HB). apply pre_cur. kinds.
  intros [vs c1] [v [c2 [us [-> [H1 H2]]]]]. apply add_safe; [|eapply cn_unlet; eauto].
  apply dlvals_sfx in H2. apply dexpr_shrinks in H1. destruct H1. eapply sfx_trans; eauto.
Qed.

Lemma lock_safe mk : (mk = VLockvar /\ P = T "parse_cmd_lockvar") \/ (mk = VUnlockvar /\ P = T "parse_cmd_unlockvar") ->
  csafe neovim B (post st) (parse_cmd_lock mk k st).
Proof.
  intros HP. unfold parse_cmd_lock. pose proof pre_headP as Hh. pose proof pre_cur as Hc.
  pose proof (blank_skip (cur st)) as Hb. pose proof (blank_sfx _ _ Hb) as Hs.
  assert (HsB : sfx (skip_white (cur st)) B) by (eapply sfx_trans; [exact Hs|exact Hc]).
  cbv zeta. apply (csafe_bind _ _ (fun '(z, c1) => ddepth (cur st) z c1)).
  { destruct (o_in isdigit (peek1 (skip_white (cur st)))) eqn:E.
    - unfold read_digit. destruct (read_while isdigit (skip_white (cur st))) as [s c'] eqn:E2.
      assert (Hsm : some_of isdigit s).
      { eapply read_some; eauto. apply o_in_peek1 in E. destruct E as [r [p [t [-> Hr]]]]. exact Hr. }
      apply read_while_spells in E2. destruct E2 as [E2 [E3 E4]].
      csafe_b. eapply str2nr_safe; [exact HsB|exact E2|exact Hsm]. intros z ->. cbn [csafe].
      eapply dp_some; eauto. destruct c' as [|[|r] p t]; cbn [peek ch_of_cell ch_in]; auto.
    - cbn [csafe]. apply dp_none; auto.
      destruct (skip_white (cur st)) as [|[|r] p t]; cbn in *; auto. }
  intros [z c1] Hz. assert (S1 : sfx c1 (cur st)) by (eapply ddepth_sfx; eauto).
  csafe_b. apply csafe_of_safe. apply (lvaluelist_safe B HB c1). eapply sfx_trans; eauto.
  { assert (HP' : P = T "parse_cmd_lockvar" \/ P = T "parse_cmd_unlockvar") by tauto.
    inversion Hz; subst.
    - apply pre_operand; auto. destruct HP' as [-> | ->]; cbn [In argument_kinds]; tauto.
    - left. eapply ar_depth; [apply pre_line|exact Hh|cbn [In]; destruct HP' as [-> | ->]; tauto|eauto..]. }
  intros [vs c2] [v [c3 [us [-> [H1 H2]]]]].
  assert (S3 : sfx c2 (cur st)).
  { apply dlvals_sfx in H2. apply dexpr_shrinks in H1. destruct H1. eauto using sfx_trans. }
  apply add_safe; auto.
  destruct HP as [[-> HP]|[-> HP]]; rewrite HP in Hh; [eapply cn_lockvar|eapply cn_unlockvar]; eauto.
Qed.

Lemma loop_ctx : negb (in_context is_while st) && negb (in_context is_for st) = negb (pl_loop w).
Proof.
  destruct Hpre. unfold in_context. rewrite p_ctx0. rewrite <- (opens_loop _ _ _ _ _ p_open0).
  rewrite negb_orb. reflexivity.
Qed.

Lemma with_cur_same : with_cur (cur st) st = st.
Proof. destruct st; reflexivity. Qed.

Lemma continue_safe : P = T "parse_cmd_continue" -> csafe neovim B (post st) (parse_cmd_continue k st).
Proof.
  intros HP. unfold parse_cmd_continue. pose proof pre_headP as Hh. rewrite HP in Hh.
  rewrite loop_ctx. destruct (pl_loop w) eqn:Ew; cbn [negb]; [|apply pre_misplaced; intros; rewrite HP; constructor; auto].
  rewrite <- with_cur_same at 2. apply add_safe. constructor. eapply cn_continue; eauto.
Qed.
Lemma break_safe : P = T "parse_cmd_break" -> csafe neovim B (post st) (parse_cmd_break k st).
Proof.
  intros HP. unfold parse_cmd_break. pose proof pre_headP as Hh. rewrite HP in Hh.
  rewrite loop_ctx. destruct (pl_loop w) eqn:Ew; cbn [negb]; [|apply pre_misplaced; intros; rewrite HP; constructor; auto].
  rewrite <- with_cur_same at 2. apply add_safe. constructor. eapply cn_break; eauto.
Qed.

Lemma throw_safe : P = T "parse_cmd_throw" -> csafe neovim B (post st) (parse_cmd_throw k st).
Proof.
  intros HP. unfold parse_cmd_throw. pose proof pre_headP as Hh. rewrite HP in Hh.
  csafe_b. apply csafe_of_safe. apply parse_expr_safe; auto. apply pre_cur. kinds.
  intros [v c1] Hv. cbn [is_expr_at] in Hv. destruct (dexpr_shrinks _ _ _ _ Hv).
  apply add_safe; auto. eapply cn_throw; eauto.
Qed.
Lemma eval_safe : P = T "parse_cmd_eval" -> csafe neovim B (post st) (parse_cmd_eval k st).
Proof.
  intros HP. unfold parse_cmd_eval. pose proof pre_headP as Hh. rewrite HP in Hh.
  csafe_b. apply csafe_of_safe. apply parse_expr_safe; auto. apply pre_cur. kinds.
  intros [v c1] Hv. cbn [is_expr_at] in Hv. destruct (dexpr_shrinks _ _ _ _ Hv).
  apply add_safe; auto. eapply cn_eval; eauto.
Qed.

Lemma echo_safe e : P = echo_parser e -> csafe neovim B (post st) (parse_cmd_echo e k st).
Proof.
  intros HP. unfold parse_cmd_echo. pose proof pre_headP as Hh. rewrite HP in Hh.
  csafe_b. apply csafe_of_safe. apply exprlist_safe; auto. apply pre_cur.
  { intros c' Hb. apply pre_due; auto. rewrite HP. destruct e; cbn [In argument_kinds echo_parser]; tauto. }
  intros [vs c1] Hv. apply add_safe. eapply dexprs_sfx; eauto. eapply cn_echo; eauto.
Qed.
Lemma execute_safe : P = T "parse_cmd_execute" -> csafe neovim B (post st) (parse_cmd_execute k st).
Proof.
  intros HP. unfold parse_cmd_execute. pose proof pre_headP as Hh. rewrite HP in Hh.
  csafe_b. apply csafe_of_safe. apply exprlist_safe; auto. apply pre_cur.
  { intros c' Hb. apply pre_due; auto. rewrite HP. cbn [In argument_kinds]; tauto. }
  intros [vs c1] Hv. apply add_safe. eapply dexprs_sfx; eauto. eapply cn_execute; eauto.
Qed.

Lemma echohl_safe : P = T "parse_cmd_echohl" -> csafe neovim B (post st) (parse_cmd_echohl k st).
Proof.
  intros HP. unfold parse_cmd_echohl. pose proof pre_headP as Hh. rewrite HP in Hh.
  destruct (read_while _ (cur st)) as [s c1] eqn:E. apply read_while_spells in E.
  destruct E as [E1 [E2 E3]]. apply add_safe. eapply spells_sfx; eauto.
  eapply cn_echohl; eauto. intros r Hr. apply E3 in Hr. cbn [ends_excmds] in Hr.
  apply negb_false_iff in Hr. apply orb_true_iff in Hr.
  destruct Hr as [Hr|Hr]; apply N.eqb_eq in Hr; auto.
Qed.

(** * Commands that open a block *)

Lemma push_safe w' kd c' : sfx c' (cur st) ->
  opens neovim B w' c' (mkFrame kd (cmdpos k) (ec_ea k) [] :: f :: fs) ->
  csafe neovim B (post st) (Ok (push_context kd (cmdpos k) (ec_ea k) (with_cur c' st))).
Proof.
  intros H Ho. destruct Hpre. cbn [csafe]. unfold post, push_context.
  cbn [with_ctx with_cur cache cur ctx]. rewrite p_ctx0. split; [auto|split; [auto|eauto]].
Qed.

Lemma if_safe : P = T "parse_cmd_if" -> csafe neovim B (post st) (parse_cmd_if k st).
Proof.
  intros HP. unfold parse_cmd_if. pose proof pre_headP as Hh. rewrite HP in Hh.
  csafe_b. apply csafe_of_safe. apply parse_expr_safe; auto. apply pre_cur. kinds.
  intros [v c1] Hv. cbn [is_expr_at] in Hv. destruct (dexpr_shrinks _ _ _ _ Hv).
  apply push_safe with (w' := in_block w); auto. destruct Hpre. eapply ob_if; eauto. constructor.
Qed.
Lemma while_safe : P = T "parse_cmd_while" -> csafe neovim B (post st) (parse_cmd_while k st).
Proof.
  intros HP. unfold parse_cmd_while. pose proof pre_headP as Hh. rewrite HP in Hh.
  csafe_b. apply csafe_of_safe. apply parse_expr_safe; auto. apply pre_cur. kinds.
  intros [v c1] Hv. cbn [is_expr_at] in Hv. destruct (dexpr_shrinks _ _ _ _ Hv).
  apply push_safe with (w' := in_loop w); auto. destruct Hpre. eapply ob_while; eauto. constructor.
Qed.
Lemma try_safe : P = T "parse_cmd_try" -> csafe neovim B (post st) (parse_cmd_try k st).
Proof.
  intros HP. unfold parse_cmd_try. pose proof pre_headP as Hh. rewrite HP in Hh.
  rewrite <- with_cur_same at 2.
  apply push_safe with (w' := in_block w). constructor. destruct Hpre. eapply ob_try; eauto. constructor.
Qed.
Lemma for_safe : P = T "parse_cmd_for" -> csafe neovim B (post st) (parse_cmd_for k st).
Proof.
  intros HP. unfold parse_cmd_for. pose proof pre_headP as Hh. rewrite HP in Hh.
  pose proof pre_cur as Hc.
  csafe_b. apply csafe_of_safe. apply (lhs_safe B HB target parse_lvalue (cur st)); auto. kinds.
  { intros. apply lvalue_safe; auto. }
  intros [[[l ls] rs] c1] Hl. assert (S1 : sfx c1 (cur st)) by (eapply dlhs_sfx; eauto).
  pose proof (blank_skip c1) as Hb. pose proof (blank_sfx _ _ Hb) as Hs.
  assert (S2 : sfx (skip_white c1) (cur st)) by (eapply sfx_trans; eauto).
  cbv zeta. unfold read_alpha. destruct (read_while isalpha (skip_white c1)) as [s c3] eqn:E.
  pose proof E as Er. apply read_while_spells in E. destruct E as [E _].
  assert (S3 : sfx c3 (cur st)) by (eapply sfx_trans; [eapply spells_sfx; eauto|auto]).
  destruct (text_eqb s (T "in")) eqn:Ei; cbn [negb].
  2: { apply pre_argument. eapply sfx_trans; eauto. rewrite HP. eapply af_in; eauto.
       intros c' K. destruct (ch_in isalpha (peek c')) eqn:Ec; auto. exfalso.
       destruct (skip_white c1) as [|[|r1] p1 t1]; try contradiction. destruct K as [-> K].
       destruct t1 as [|[|r2] p2 t2]; try contradiction. destruct K as [-> K]. cbn in K. subst t2.
       cbn [read_while] in Er. change (isalpha 105) with true in Er. change (isalpha 110) with true in Er.
       assert (Ew : read_while isalpha c' = ([], c')).
       { destruct c' as [|[|r3] p3 t3]; auto. cbn in Ec |- *. rewrite Ec. reflexivity. }
       cbn [ch_of_cell] in Er. rewrite Ew in Er. inversion Er; subst s. discriminate Ei. }
  apply text_eqb_eq in Ei. subst s.
  csafe_b. apply csafe_of_safe. apply (parse_expr_safe B c3); auto. eapply sfx_trans; eauto.
  { eapply sign_operand; [|..|exact E]. eapply sfx_trans; eauto. cbn [In expression_signs]. tauto. }
  intros [v c4] Hv. cbn [is_expr_at] in Hv. destruct (dexpr_shrinks _ _ _ _ Hv).
  apply push_safe with (w' := in_loop w). eapply sfx_trans; eauto.
  destruct Hpre. eapply ob_for; eauto. constructor.
Qed.

Lemma mem_N_In x l : mem_N x l = true -> In x l.
Proof.
  induction l as [|y l IH]; cbn [mem_N]; [discriminate|]. intros H. apply orb_true_iff in H.
  destruct H as [H|H]. apply N.eqb_eq in H. subst. left; auto. right; auto.
Qed.

Lemma mem_In x l : In x l -> mem_N x l = true.
Proof.
  induction l as [|y l IH]; cbn [mem_N In]; [contradiction|]. intros H. apply orb_true_iff.
  destruct H as [->|H]. left; apply N.eqb_refl. right; auto.
Qed.

Lemma function_safe : P = T "parse_cmd_function" -> csafe neovim B (post st) (parse_cmd_function k st).
Proof.
  intros HP. unfold parse_cmd_function. pose proof pre_headP as Hh. rewrite HP in Hh.
  assert (HPe : In P excmd_parsers) by (rewrite HP; cbn; tauto). pose proof pre_cur as Hc.
  pose proof (blank_skip (cur st)) as Hb. pose proof (blank_sfx _ _ Hb) as Hs.
  assert (HsB : sfx (skip_white (cur st)) B) by (eapply sfx_trans; [exact Hs|exact Hc]).
  cbv zeta. destruct (ends_excmds (peek (skip_white (cur st)))) eqn:Enone.
  { apply common_safe; auto. apply listing_none; auto. rewrite HP; cbn; tauto. }
  destruct (o_is (peek1 (skip_white (cur st))) (C "/")) eqn:Esl.
  { apply common_safe; auto. rewrite HP. eapply li_search; [exact Hb|].
    apply o_is_peek1 in Esl. destruct Esl as [p0 [t0 ->]]. reflexivity. }
  csafe_b. apply csafe_of_safe. apply (lvalue_func_safe B HB (skip_white (cur st))); auto. kinds.
  intros [lft c1] [Hl Hn]. destruct (dlval_shrinks _ _ _ Hl) as [S1 _].
  destruct (dlval_pos _ _ _ Hl) as [ps [Ps1 Ps2]].
  pose proof (blank_skip c1) as Hb1. pose proof (blank_sfx _ _ Hb1) as Hs1.
  set (c2 := skip_white c1) in *.
  assert (S2 : sfx c2 (cur st)) by (eapply sfx_trans; [exact Hs1|eapply sfx_trans; eauto]).
  apply (csafe_bind _ _ (fun _ => forall p s, lft = VIdent p s -> plain_name_ok s)).
  { destruct lft; try (cbn [csafe]; intros; discriminate).
    assert (Hne : value <> []).
    { inversion Hl; subst; eapply dname_nonempty; eauto. }
    destruct value as [|r0 v0]; [congruence|]. unfold bad_function_name. cbn [bind].
    destruct (negb (r0 =? C "<") && negb (r0 =? C "_") && negb (isupper r0) &&
                  negb (mem_N (C ":") (r0 :: v0)) && negb (mem_N (C "#") (r0 :: v0))) eqn:Eb.
    - cbn [vpos] in Ps2. rewrite Ps2. apply pre_argument. eapply sfx_trans; eauto.
      rewrite HP. eapply af_capital; eauto. rewrite !andb_true_iff, !negb_true_iff in Eb.
      destruct Eb as [[[[B1 B2] B3] B4] B5]. apply N.eqb_neq in B1, B2. intros [[r1 [t1 [K1 K2]]]|[K|K]].
      + inversion K1; subst. destruct K2 as [K2|[K2|K2]]; congruence.
      + apply mem_In in K. congruence.
      + apply mem_In in K. congruence.
    - cbn [csafe]. intros p0 s0 E0. inversion E0; subst.
      rewrite !andb_false_iff, !negb_false_iff in Eb.
      destruct Eb as [[[[Eb|Eb]|Eb]|Eb]|Eb].
      + apply N.eqb_eq in Eb. left. eauto.
      + apply N.eqb_eq in Eb. left. eauto 6.
      + left. eauto 6.
      + right; left. apply mem_N_In; auto.
      + right; right. apply mem_N_In; auto. }
  intros _ Hplain.
  destruct (o_is (peek1 c2) (C "(")) eqn:Ep; cbn [negb].
  2: { apply common_safe; auto. rewrite HP. eapply li_function; eauto. intros K. rewrite K in Ep. discriminate Ep. }
  apply o_is_peek1 in Ep. destruct Ep as [p [t Et]].
  assert (Eg : getn 1 c2 = (T "(", t)) by (rewrite Et; reflexivity). rewrite Eg. cbn [snd].
  assert (St : sfx t (cur st)). { rewrite Et in S2. eapply sfx_tail; eauto. }
  assert (StB : sfx t B) by (eapply sfx_trans; eauto).
  csafe_b. apply csafe_of_safe. apply (tget_safe B t); auto. intros [tk0 c4] Htk.
  apply (csafe_bind _ _ (fun '(rl, da, c5) => dfparams false t rl da c5 /\ fn_params rl da)).
  { destruct (tok_eqb (tk tk0) KPClose) eqn:Ek.
    - apply tok_eqb_eq in Ek. cbn [csafe]. split.
      + eapply fp_close. rewrite <- Ek. apply token_tok_at; eauto.
      + exists [], []. cbn. repeat split; auto; constructor.
    - apply csafe_of_safe. eapply safe_imp; [|apply (params_safe B HB t StB (S (clen t)) [] false t); auto; [constructor|left; eexists; rewrite <- Et; eapply sfx_trans; [exact S2|exact Hc]]].
      intros [[rl da] c5] [H1 [ps' [rest [H2 [H3 [H4 [_ [H5 [H6 H7]]]]]]]]]. split; auto.
      exists ps', rest. auto 10. }
  intros [[rl da] c5] [Hp1 Hp2]. assert (S5 : sfx c5 (cur st)).
  { apply dfparams_sfx in Hp1. eapply sfx_trans; eauto. }
  csafe_b. apply csafe_of_safe.
  apply (attrs_safe B (S (clen c5)) (mkAttr false false false false) c5). eapply sfx_trans; eauto. lia.
  intros [a c6] Ha. apply push_safe with (w' := in_function w).
  apply dattrs_sfx in Ha. eapply sfx_trans; eauto.
  destruct Hpre. eapply ob_function; eauto. rewrite Et. cbn; auto. constructor.
Qed.

(** * Commands that close or continue a block *)

Ltac misplaced :=
  apply pre_misplaced; match goal with HP : P = _, Ek : f_kind f = _ |- _ => rewrite HP, Ek end; cbn [block_of]; intros ks Hks;
  first [eapply mp_missing with (m := T "E171: Missing :endif"); [exact Hks|constructor; cbn [In]; auto]
    |eapply mp_missing with (m := T "E600: Missing :endtry"); [exact Hks|constructor; cbn [In]; auto]
    |eapply mp_missing with (m := T "E170: Missing :endwhile"); [exact Hks|constructor; cbn [In]; auto]
    |eapply mp_missing with (m := T "E170: Missing :endfor"); [exact Hks|constructor; cbn [In]; auto]
    |constructor; first [exact Hks|subst ks; discriminate|unfold innermost in *; congruence]].

Lemma elseif_safe : P = T "parse_cmd_elseif" -> csafe neovim B (post st) (parse_cmd_elseif k st).
Proof.
  intros HP. unfold parse_cmd_elseif. pose proof pre_headP as Hh. rewrite HP in Hh.
  pose proof pre_cur as Hc. rewrite pre_top. cbn [bind].
  assert (Hgo : is_if_part (f_kind f) = true -> f_kind f <> FElse ->
    csafe neovim B (post st) (let* st1 := (if is_if (f_kind f) then Ok st else pop_part st) in
     let* '(v, c1) := parse_expr (cur st1) in
     Ok (push_context (FElseif v) (cmdpos k) (ec_ea k) (with_cur c1 st1)))).
  { intros Hk Hne. pose proof (pre_cmd) as _.
    destruct (close_if_part neovim B w e0 st f fs) as [w0 [f0 [fs0 [el [Ho [Hel Hpop]]]]]]; auto.
    { apply Hpre. } { apply Hpre. }
    rewrite Hpop. cbn [bind with_ctx cur]. specialize (Hel Hne). subst el.
    csafe_b. apply csafe_of_safe. apply parse_expr_safe; auto. kinds.
    intros [v c1] Hv. cbn [is_expr_at] in Hv. destruct (dexpr_shrinks _ _ _ _ Hv) as [V1 V2].
    cbn [csafe]. unfold post, push_context. cbn [with_ctx with_cur cache cur ctx].
    destruct Ho as [e1 [a [b [d [c [ea [v0 [c1' [body [es [-> [O1 [O2 [O3 [O4 O5]]]]]]]]]]]]]]].
    destruct Hpre. split; [auto|split; [auto|]]. exists (in_block w0).
    eapply ob_elseif; eauto. constructor. }
  destruct (f_kind f) eqn:Ek; try (apply Hgo; auto; discriminate); misplaced.
Qed.

Lemma else_safe : P = T "parse_cmd_else" -> csafe neovim B (post st) (parse_cmd_else k st).
Proof.
  intros HP. unfold parse_cmd_else. pose proof pre_headP as Hh. rewrite HP in Hh.
  rewrite pre_top. cbn [bind].
  assert (Hgo : is_if_part (f_kind f) = true -> f_kind f <> FElse ->
    csafe neovim B (post st) (let* st1 := (if is_if (f_kind f) then Ok st else pop_part st) in
     Ok (push_context FElse (cmdpos k) (ec_ea k) st1))).
  { intros Hk Hne.
    destruct (close_if_part neovim B w e0 st f fs) as [w0 [f0 [fs0 [el [Ho [Hel Hpop]]]]]]; auto.
    { apply Hpre. } { apply Hpre. }
    rewrite Hpop. cbn [bind csafe]. specialize (Hel Hne). subst el.
    unfold post, push_context. cbn [with_ctx with_cur cache cur ctx].
    destruct Ho as [e1 [a [b [d [c [ea [v0 [c1' [body [es [-> [O1 [O2 [O3 [O4 O5]]]]]]]]]]]]]]].
    destruct Hpre. split; [auto|split; [constructor|]]. exists (in_block w0).
    eapply ob_else; eauto. constructor. }
  destruct (f_kind f) eqn:Ek; try (apply Hgo; auto; discriminate); misplaced.
Qed.

Lemma endif_safe : P = T "parse_cmd_endif" -> csafe neovim B (post st) (parse_cmd_endif k st).
Proof.
  intros HP. unfold parse_cmd_endif. pose proof pre_headP as Hh. rewrite HP in Hh.
  rewrite pre_top. cbn [bind].
  destruct (is_if_part (f_kind f)) eqn:Ek; cbn [negb]; [|destruct (f_kind f) eqn:Ef; try discriminate Ek; misplaced].
  destruct (close_if_part neovim B w e0 st f fs) as [w0 [f0 [fs0 [el [Ho [Hel Hpop]]]]]]; auto.
  { apply Hpre. } { apply Hpre. }
  rewrite Hpop. cbn [bind].
  destruct Ho as [e1 [a [b [d [c [ea [v0 [c1' [body [es [-> [O1 [O2 [O3 [O4 O5]]]]]]]]]]]]]]].
  destruct (opens_cons _ _ _ _ _ O1) as [g [gs ->]].
  unfold pop_block. cbn [with_ctx ctx close_frame f_kind f_pos f_ea f_body csafe cur cache].
  eapply (closed_safe st w0 e1 a (cur st)); eauto; [apply Hpre| |constructor].
  destruct Hpre. eapply cn_if; eauto.
Qed.

Lemma endtry_safe : P = T "parse_cmd_endtry" -> csafe neovim B (post st) (parse_cmd_endtry k st).
Proof.
  intros HP. unfold parse_cmd_endtry. pose proof pre_headP as Hh. rewrite HP in Hh.
  rewrite pre_top. cbn [bind].
  destruct (is_try_part (f_kind f)) eqn:Ek; cbn [negb]; [|destruct (f_kind f) eqn:Ef; try discriminate Ek; misplaced].
  destruct (close_try_part neovim B w e0 st f fs) as [w0 [f0 [fs0 [el [Ho [Hel Hpop]]]]]]; auto.
  { apply Hpre. } { apply Hpre. }
  rewrite Hpop. cbn [bind].
  destruct Ho as [e1 [a [b [d [c [ea [body [cs [-> [O1 [O2 [O3 O4]]]]]]]]]]]].
  destruct (opens_cons _ _ _ _ _ O1) as [g [gs ->]].
  unfold pop_block. cbn [with_ctx ctx close_frame f_kind f_pos f_ea f_body csafe cur cache].
  eapply (closed_safe st w0 e1 a (cur st)); eauto; [apply Hpre| |constructor].
  destruct Hpre. eapply cn_try; eauto.
Qed.

Lemma endwhile_safe : P = T "parse_cmd_endwhile" -> csafe neovim B (post st) (parse_cmd_endwhile k st).
Proof.
  intros HP. unfold parse_cmd_endwhile. pose proof pre_headP as Hh. rewrite HP in Hh.
  rewrite pre_top. cbn [bind].
  destruct (is_while (f_kind f)) eqn:Ek; cbn [negb]; [|destruct (f_kind f) eqn:Ef; try discriminate Ek; misplaced].
  unfold pop_block. rewrite (p_ctx _ _ _ _ _ _ _ Hpre).
  pose proof (p_open _ _ _ _ _ _ _ Hpre) as Ho. pose proof (p_gap _ _ _ _ _ _ _ Hpre) as Hg.
  inversion Ho; subst; cbn [f_kind] in *; try discriminate Ek.
  match goal with H : opens _ _ w0 _ fs |- _ => destruct (opens_cons _ _ _ _ _ H) as [g [gs ->]] end.
  cbn [with_ctx ctx close_frame f_kind f_pos f_ea f_body csafe cur cache].
  eapply closed_safe; eauto; [apply Hpre| |constructor]. eapply cn_while; eauto.
Qed.

Lemma endfor_safe : P = T "parse_cmd_endfor" -> csafe neovim B (post st) (parse_cmd_endfor k st).
Proof.
  intros HP. unfold parse_cmd_endfor. pose proof pre_headP as Hh. rewrite HP in Hh.
  rewrite pre_top. cbn [bind].
  destruct (is_for (f_kind f)) eqn:Ek; cbn [negb]; [|destruct (f_kind f) eqn:Ef; try discriminate Ek; misplaced].
  unfold pop_block. rewrite (p_ctx _ _ _ _ _ _ _ Hpre).
  pose proof (p_open _ _ _ _ _ _ _ Hpre) as Ho. pose proof (p_gap _ _ _ _ _ _ _ Hpre) as Hg.
  inversion Ho; subst; cbn [f_kind] in *; try discriminate Ek.
  match goal with H : opens _ _ w0 _ fs |- _ => destruct (opens_cons _ _ _ _ _ H) as [g [gs ->]] end.
  cbn [with_ctx ctx close_frame f_kind f_pos f_ea f_body csafe cur cache].
  eapply closed_safe; eauto; [apply Hpre| |constructor]. eapply cn_for; eauto.
Qed.

Lemma endfunction_safe : P = T "parse_cmd_endfunction" -> csafe neovim B (post st) (parse_cmd_endfunction k st).
Proof.
  intros HP. unfold parse_cmd_endfunction. pose proof pre_headP as Hh. rewrite HP in Hh.
  rewrite pre_top. cbn [bind].
  apply (csafe_bind _ _ (fun _ => is_function (f_kind f) = false -> f_kind f = FTop)).
  { unfold check_missing_if_try_loops. destruct (f_kind f) eqn:Ef; cbn [is_if_part is_try_part is_while is_for]; try (cbn; congruence); misplaced. }
  intros _ Hft.
  destruct (is_function (f_kind f)) eqn:Ek; cbn [negb]; [|pose proof (Hft eq_refl) as Ef; clear Ek; apply pre_misplaced; rewrite HP, Ef; cbn [block_of]; intros; apply mp_endfunction; auto].
  unfold pop_block. cbn [with_cur ctx]. rewrite (p_ctx _ _ _ _ _ _ _ Hpre).
  pose proof (p_open _ _ _ _ _ _ _ Hpre) as Ho. pose proof (p_gap _ _ _ _ _ _ _ Hpre) as Hg.
  destruct (getn_all (cur st)) as [s c9] eqn:E9. apply getn_all_spells in E9. destruct E9 as [E9 E10].
  inversion Ho; subst; cbn [f_kind] in *; try discriminate Ek.
  match goal with H : opens _ _ w0 _ fs |- _ => destruct (opens_cons _ _ _ _ _ H) as [g [gs ->]] end.
  cbn [snd with_ctx with_cur ctx close_frame f_kind f_pos f_ea f_body csafe cur cache].
  eapply (closed_safe st w0 _ _ c9); eauto; [apply Hpre| |eapply spells_sfx; eauto]. eapply cn_function; eauto.
Qed.

Lemma catch_safe : P = T "parse_cmd_catch" -> csafe neovim B (post st) (parse_cmd_catch k st).
Proof.
  intros HP. unfold parse_cmd_catch. pose proof pre_headP as Hh. rewrite HP in Hh.
  pose proof pre_cur as Hc. rewrite pre_top. cbn [bind].
  assert (Hgo : is_try_part (f_kind f) = true -> f_kind f <> FFinally ->
    csafe neovim B (post st) (let* st1 := (if is_try (f_kind f) then Ok st else pop_part st) in
      let c := skip_white (cur st1) in
      let* '(pat, c1) :=
       (if ends_excmds (peek c) then Ok ([], c)
        else match get c with
             | (CR d, c') => let* '(s, _, c'') := parse_pattern d c' in Ok (s, c'')
             | (_, c') => Ok ([], c')
             end) in
      Ok (push_context (FCatch pat) (cmdpos k) (ec_ea k) (with_cur c1 st1)))).
  { intros Hk Hne.
    destruct (close_try_part neovim B w e0 st f fs) as [w0 [f0 [fs0 [fi [Ho [Hel Hpop]]]]]]; auto.
    { apply Hpre. } { apply Hpre. }
    rewrite Hpop. cbn [bind with_ctx cur]. specialize (Hel Hne). subst fi. cbv zeta.
    pose proof (blank_skip (cur st)) as Hb. pose proof (blank_sfx _ _ Hb) as Hs.
    apply (csafe_bind _ _ (fun '(pat, c1) => dpattern (cur st) pat c1)).
    { apply csafe_of_safe. set (c := skip_white (cur st)) in *. clearbody c.
      destruct c as [p|[|r] p t]; cbn [peek ch_of_cell ends_excmds].
      - cbn [safe]. apply pat_none; auto. discriminate.
      - cbn [safe]. apply pat_none; auto. discriminate.
      - destruct ((r =? C "|") || (r =? C """")) eqn:Er.
        + cbn [safe]. apply pat_none; auto. cbn. intros r0 E0; inversion E0; subst.
          apply orb_true_iff in Er. destruct Er as [Er|Er]; apply N.eqb_eq in Er; auto.
        + apply orb_false_iff in Er. destruct Er as [Er1 Er2].
          apply N.eqb_neq in Er1. apply N.eqb_neq in Er2. cbn [get].
          cbn [ch_of_cell]. safe_b.
          apply (pattern_safe B r (clen t) t 0). lia.
          eapply sfx_trans; [|exact Hc]. eapply sfx_tail; eauto.
          intros [[s cl] c''] Hpt. cbn [safe]. cbn [pattern_post] in Hpt. destruct cl.
          * destruct Hpt. eapply pat_closed; eauto.
          * destruct Hpt as [[j Hj] [Hp1 Hp2]]. eapply pat_open; eauto. }
    intros [pat c1] Hpat. assert (S1 : sfx c1 (cur st)) by (eapply dpattern_sfx; eauto).
    cbn [csafe]. unfold post, push_context. cbn [with_ctx with_cur cache cur ctx].
    destruct Ho as [e1 [a [b [d [c [ea [body [cs [-> [O1 [O2 [O3 O4]]]]]]]]]]]].
    destruct Hpre. split; [auto|split; [auto|]]. exists (in_block w0).
    eapply ob_catch; eauto. constructor. }
  destruct (f_kind f) eqn:Ek; try (apply Hgo; auto; discriminate); misplaced.
Qed.

Lemma finally_safe : P = T "parse_cmd_finally" -> csafe neovim B (post st) (parse_cmd_finally k st).
Proof.
  intros HP. unfold parse_cmd_finally. pose proof pre_headP as Hh. rewrite HP in Hh.
  rewrite pre_top. cbn [bind].
  assert (Hgo : is_try_part (f_kind f) = true -> f_kind f <> FFinally ->
    csafe neovim B (post st) (let* st1 := (if is_try (f_kind f) then Ok st else pop_part st) in
      Ok (push_context FFinally (cmdpos k) (ec_ea k) st1))).
  { intros Hk Hne.
    destruct (close_try_part neovim B w e0 st f fs) as [w0 [f0 [fs0 [fi [Ho [Hel Hpop]]]]]]; auto.
    { apply Hpre. } { apply Hpre. }
    rewrite Hpop. cbn [bind csafe]. specialize (Hel Hne). subst fi.
    unfold post, push_context. cbn [with_ctx with_cur cache cur ctx].
    destruct Ho as [e1 [a [b [d [c [ea [body [cs [-> [O1 [O2 [O3 O4]]]]]]]]]]]].
    destruct Hpre. split; [auto|split; [constructor|]]. exists (in_block w0).
    eapply ob_finally; eauto. constructor. }
  destruct (f_kind f) eqn:Ek; try (apply Hgo; auto; discriminate); misplaced.
Qed.

End OneCmd.

(** * Dispatch *)

Lemma table_safe : Forall (fun '(P, g) => cmd_safe P g) parser_table.
Proof.
  unfold parser_table.
  assert (Hin : forall P, mem_text P excmd_parsers = true -> In P excmd_parsers)
    by (intros P; apply mem_text_In).
  repeat (apply Forall_cons); try apply Forall_nil; intros k st w e0 f fs Hp.
  - eapply append_safe; eauto; cbn; tauto.
  - eapply break_safe; eauto.
  - eapply call_safe; eauto.
  - eapply catch_safe; eauto.
  - eapply common_safe; eauto. apply li_plain; cbn; tauto.
  - eapply continue_safe; eauto.
  - eapply delfunction_safe; eauto.
  - eapply echo_safe; eauto.
  - eapply echo_safe; eauto.
  - eapply echohl_safe; eauto.
  - eapply echo_safe; eauto.
  - eapply echo_safe; eauto.
  - eapply else_safe; eauto.
  - eapply elseif_safe; eauto.
  - eapply endfor_safe; eauto.
  - eapply endfunction_safe; eauto.
  - eapply endif_safe; eauto.
  - eapply endtry_safe; eauto.
  - eapply endwhile_safe; eauto.
  - eapply execute_safe; eauto.
  - eapply finally_safe; eauto.
  - eapply finish_safe; eauto.
  - eapply for_safe; eauto.
  - eapply function_safe; eauto.
  - eapply if_safe; eauto.
  - eapply append_safe; eauto; cbn; tauto.
  - eapply let_safe; eauto.
  - eapply const_safe; eauto.
  - eapply loadkeymap_safe; eauto.
  - eapply lock_safe; eauto.
  - eapply lua_safe; eauto; cbn; tauto.
  - eapply lua_safe; eauto; cbn; tauto.
  - eapply lua_safe; eauto; cbn; tauto.
  - eapply lua_safe; eauto; cbn; tauto.
  - eapply lua_safe; eauto; cbn; tauto.
  - eapply return_safe; eauto.
  - eapply lua_safe; eauto; cbn; tauto.
  - eapply lua_safe; eauto; cbn; tauto.
  - eapply throw_safe; eauto.
  - eapply eval_safe; eauto.
  - eapply try_safe; eauto.
  - eapply unlet_safe; eauto.
  - eapply lock_safe; eauto.
  - eapply common_safe; eauto. apply li_plain; cbn; tauto.
  - eapply while_safe; eauto.
  - eapply wincmd_safe; eauto.
  - eapply syntax_cmd_safe; eauto.
Qed.

(** Every table entry names a command function. *)
Lemma tables_parsers :
  forallb (fun x => mem_text (c_parser x) (map fst parser_table))
    (builtin_commands ++ neovim_additional_commands) = true.
Proof. vm_compute. reflexivity. Qed.

Lemma first_match_in s x : first_match neovim s x -> In x (builtin_commands ++ neovim_additional_commands).
Proof.
  intros [[b [a [H _]]] _]. assert (Hx : In x (command_table neovim)).
  { rewrite H. apply in_or_app. right; left; auto. }
  unfold command_table in Hx. apply in_app_or in Hx. apply in_or_app.
  destruct Hx as [Hx|Hx]; auto. destruct neovim; auto. contradiction.
Qed.

Lemma named_parser s x : named neovim s x -> In (c_parser x) (map fst parser_table).
Proof.
  assert (Ht : forall s x, first_match neovim s x -> In (c_parser x) (map fst parser_table)).
  { intros s0 x0 H. apply first_match_in in H. pose proof tables_parsers as K.
    rewrite forallb_forall in K. apply K in H. apply mem_text_In in H. exact H. }
  destruct 1; eauto. cbn [user_command c_parser]. apply mem_text_In. vm_compute. reflexivity.
Qed.

Lemma assoc_some {A} x (l : list (text * A)) : In x (map fst l) -> exists v, assoc_text x l = Some v.
Proof.
  induction l as [|[y v] l IH]; cbn [map fst In assoc_text]; [contradiction|].
  destruct (text_eqb x y) eqn:E; eauto. intros [H|H]; auto. subst.
  rewrite (proj2 (text_eqb_eq x x) eq_refl) in E. discriminate.
Qed.

Lemma dispatch_safe k st w e0 f fs s : pre (c_parser (ec_x k)) k st w e0 f fs ->
  named neovim s (ec_x k) -> csafe neovim B (post st) (dispatch k st).
Proof.
  intros Hp Hn. unfold dispatch. apply named_parser in Hn. apply assoc_some in Hn.
  destruct Hn as [g Hg]. rewrite Hg. apply assoc_In in Hg. pose proof table_safe as K.
  rewrite Forall_forall in K. apply K in Hg. eapply Hg; eauto.
Qed.

End Safe.
