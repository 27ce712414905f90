(** An expression behind a command and the same expression by itself: the proofs. *)
From Coq Require Import Lia ZifyBool ZifyNat ZifyN.
From Verif Require Import Base Utf8 CharClass Reader Vnode Token Ast Tokenizer ExprParser CmdTable CmdParser Export Api
  Cursor Grammar Sim SimCmd SimLoop Graft Places LinesProof ApiExpr ApiFile ScriptExport ExportSafe ExprSafe Script CmdBase CmdOpen CmdLoop Nodes Join JoinProof Sequel SequelProof JsonProof NodeText
  TokSafe IndentProof Head Written WrittenProof WrittenScript FindBack LineProof.

(** * The specification *)

(** The commands whose argument is one expression, or expressions one after the other. *)
Definition expr_names : list text :=
  [T "throw"; T "eval"; T "echo"; T "echon"; T "echomsg"; T "echoerr"; T "execute"].
(** The word is such a command, possibly abbreviated. *)
Definition expr_command (neovim : bool) (k : text) : Prop :=
  exists x, first_match neovim k x /\ In (c_name x) expr_names.
(** The first expression of such a command. *)
Definition first_expr (n : node) : option node :=
  match n with
  | NThrow _ _ e => e
  | NEval _ _ e => e
  | NEchoCmd _ _ _ es => hd_error es
  | NExecute _ _ es => hd_error es
  | _ => None
  end.
(** A position of the expression by itself, in the file with the command. *)
Definition behind_command (file : list N) (w : N) (p : apos) : apos :=
  mkAPos (ap_offset (indented w p)) (ap_line (indented w p)) (ap_column (indented w p)) file.
Definition error_behind (file : list N) (w : N) (e : go_error) : go_error :=
  match indented_error w e with
  | ErrVimlParser _ i l c m => ErrVimlParser file i l c m
  | o => o
  end.

(** * The commands *)

Lemma expr_table nv : forallb (fun x => negb (mem_text (c_name x) expr_names) ||
  mem_text (c_parser x) [T "parse_cmd_throw"; T "parse_cmd_eval"; T "parse_cmd_echo"; T "parse_cmd_echon"; T "parse_cmd_echomsg"; T "parse_cmd_echoerr"; T "parse_cmd_execute"])
  (command_table nv) = true.
Proof. destruct nv; vm_compute; reflexivity. Qed.
Lemma expr_parser nv k x : first_match nv k x -> In (c_name x) expr_names ->
  In (c_parser x) [T "parse_cmd_throw"; T "parse_cmd_eval"; T "parse_cmd_echo"; T "parse_cmd_echon"; T "parse_cmd_echomsg"; T "parse_cmd_echoerr"; T "parse_cmd_execute"].
Proof.
  intros [[b [a [E _]]] _] Hn. pose proof (expr_table nv) as G. rewrite forallb_forall in G.
  assert (Hx : In x (command_table nv)) by (rewrite E, in_app_iff; right; left; reflexivity).
  specialize (G x Hx). apply mem_text_In. apply mem_text_In in Hn. rewrite Hn in G. exact G.
Qed.

(** What the command does with its argument. *)
Definition has_first (v n : vnode) : Prop :=
  match n with
  | VThrow _ _ a => a = v
  | VEval _ _ a => a = v
  | VEcho _ _ _ l => exists t, l = v :: t
  | VExecute _ _ l => exists t, l = v :: t
  | _ => False
  end.
Definition reads_first (F : ectx -> pstate -> outcome pstate) : Prop :=
  forall ec st f fr, ctx st = f :: fr -> (forall r, peek (cur st) = CR r -> iswhite r = false /\ r <> C "|") -> (exists r, peek (cur st) = CR r) ->
  match parse_expr (cur st) with
  | Ok (v, _) => forall st', F ec st = Ok st' -> exists n, has_first v n /\ ctx st' = add_body n f :: fr
  | PErr e => F ec st = PErr e
  | Panic k => F ec st = Panic k
  | OutOfFuel => True
  end.
Lemma throw_first : reads_first parse_cmd_throw.
Proof.
  intros ec st f fr X _ _. unfold parse_cmd_throw. destruct (parse_expr (cur st)) as [[v c1]| | |]; cbn [bind]; auto.
  unfold add_node, with_cur, with_ctx. cbn [ctx cur cache]. rewrite X. intros st' E. injection E as <-. eexists. split; [|reflexivity]. reflexivity.
Qed.
Lemma eval_first : reads_first parse_cmd_eval.
Proof.
  intros ec st f fr X _ _. unfold parse_cmd_eval. destruct (parse_expr (cur st)) as [[v c1]| | |]; cbn [bind]; auto.
  unfold add_node, with_cur, with_ctx. cbn [ctx cur cache]. rewrite X. intros st' E. injection E as <-. eexists. split; [|reflexivity]. reflexivity.
Qed.
Lemma list_first c : (forall r, peek c = CR r -> iswhite r = false /\ r <> C "|") -> (exists r, peek c = CR r) ->
  match parse_expr c with
  | Ok (v, _) => forall vs c2, parse_exprlist c = Ok (vs, c2) -> exists t, vs = v :: t
  | PErr e => parse_exprlist c = PErr e
  | Panic k => parse_exprlist c = Panic k
  | OutOfFuel => True
  end.
Proof.
  intros H [r Hr]. destruct (H r Hr) as [H1 H2]. unfold parse_exprlist. cbn [exprs_loop].
  assert (Es : skip_white c = c). { apply FindBack.skip_not. rewrite Hr. exact H1. }
  rewrite Es, Hr. assert (Eb : negb (ch_is (CR r) (C """")) && ends_excmds (CR r) = false).
  { cbn [ch_is ends_excmds]. change (C """") with 34 in *. change (C "|") with 124 in *. destruct (r =? 34) eqn:E1; [reflexivity|]. cbn [negb andb]. unfold ends_excmds. cbn. lia. }
  rewrite Eb. destruct (parse_expr c) as [[v c1]| | |]; cbn [bind]; auto.
  intros vs c2 E. destruct (exprs_loop (clen c) c1) as [[t c3]| | |]; try discriminate. injection E as <- <-. eauto.
Qed.
Lemma echo_first kd : reads_first (parse_cmd_echo kd).
Proof.
  intros ec st f fr X H He. unfold parse_cmd_echo. pose proof (list_first _ H He) as G. destruct (parse_expr (cur st)) as [[v c1]| | |]; try (rewrite G; reflexivity); auto.
  intros st' E. destruct (parse_exprlist (cur st)) as [[vs c2]| | |] eqn:El; try discriminate. cbn [bind] in E. destruct (G _ _ eq_refl) as [t ->].
  unfold add_node, with_cur, with_ctx in E. cbn [ctx cur cache] in E. rewrite X in E. injection E as <-. eexists. split; [|reflexivity]. cbn. eauto.
Qed.
Lemma execute_first : reads_first parse_cmd_execute.
Proof.
  intros ec st f fr X H He. unfold parse_cmd_execute. pose proof (list_first _ H He) as G. destruct (parse_expr (cur st)) as [[v c1]| | |]; try (rewrite G; reflexivity); auto.
  intros st' E. destruct (parse_exprlist (cur st)) as [[vs c2]| | |] eqn:El; try discriminate. cbn [bind] in E. destruct (G _ _ eq_refl) as [t ->].
  unfold add_node, with_cur, with_ctx in E. cbn [ctx cur cache] in E. rewrite X in E. injection E as <-. eexists. split; [|reflexivity]. cbn. eauto.
Qed.
Lemma expr_entry P : In P [T "parse_cmd_throw"; T "parse_cmd_eval"; T "parse_cmd_echo"; T "parse_cmd_echon"; T "parse_cmd_echomsg"; T "parse_cmd_echoerr"; T "parse_cmd_execute"] ->
  In P stmt_parsers /\ exists F, assoc_text P parser_table = Some F /\ reads_first F.
Proof.
  intros H. repeat (destruct H as [<-|H]; [split; [apply mem_text_In; reflexivity|]; eexists; split; [reflexivity|]; first [apply throw_first|apply eval_first|apply echo_first|apply execute_first]|]).
  destruct H.
Qed.

(** * The rest of the file *)

Lemma trail_ctx st st' : parse_trail st = Ok st' -> ctx st' = ctx st \/ exists f r n, ctx st = f :: r /\ ctx st' = add_body n f :: r.
Proof.
  unfold parse_trail. destruct (peek _) as [| |r] eqn:E.
  - intros K. injection K as <-. left. reflexivity.
  - intros K. injection K as <-. left. reflexivity.
  - destruct (r =? C "|"); [intros K; injection K as <-; left; reflexivity|]. destruct (r =? C """"); [|discriminate].
    destruct (parse_comment _) as [st2| | |] eqn:E2; try discriminate. intros K. injection K as <-. unfold parse_comment in E2.
    repeat match type of E2 with (let (_, _) := ?x in _) = _ => destruct x | (if ?b then _ else _) = _ => destruct b; try discriminate end.
    unfold add_node, with_cur, with_ctx in *. cbn [ctx cur cache] in *. destruct (ctx st) as [|f r0]; [discriminate|]. injection E2 as <-. cbn [ctx]. right. eauto 6.
Qed.
Lemma rest_keeps neovim F p body ch m v : wf F -> CmdArgs.cache_ok neovim ch -> (clen F < m)%nat ->
  bind (cmds_loop neovim m (mkSt F [mkFrame FTop p ea0 body] ch)) parse_end = Ok v -> exists more, v = VToplevel p (body ++ more).
Proof.
  intros WF Hch Lm. set (sF := mkSt F [mkFrame FTop (getpos F) ea0 []] ch).
  assert (Hi : inv neovim F sF). { split; [exact Hch|]. exists top_place, F. cbn [ctx cur sF]. split; [|constructor]. apply ob_top. constructor. }
  assert (HF : forall c, sfx c F -> same_found eq neovim c).
  { intros c _ fr fr' ch1 ch2 <-. cbn zeta. rewrite !SequelProof.find_eq. destruct (read_cmd_name c) as [n c1]. destruct (is_nil n); [cbn; auto|].
    destruct (assoc_text n ch1); [cbn; auto|]. destruct (SequelProof.user_of neovim n); cbn; auto. }
  assert (G : gout (grel p body eq) (cmds_loop neovim m sF) (cmds_loop neovim m (mkSt F [mkFrame FTop p ea0 body] ch))).
  { apply (loop_g p body eq neovim F WF HF); [exact Hi|].
    replace [mkFrame FTop p ea0 body] with (graft p body [mkFrame FTop (getpos F) ea0 []]) by (cbn [graft base f_kind f_ea f_body]; unfold base; cbn [f_kind f_ea f_body]; rewrite app_nil_r; reflexivity).
    apply gr_intro; [discriminate|reflexivity]. }
  pose proof (loop_safe neovim F WF m sF Hi Lm) as Sf.
  destruct (cmds_loop neovim m sF) as [b|e1|x1|]; cbn [csafe] in Sf; try contradiction;
    destruct (cmds_loop neovim m (mkSt F [mkFrame FTop p ea0 body] ch)) as [b'|e2|x2|]; cbn [gout] in G; try contradiction; cbn [bind]; try discriminate.
  destruct Sf as [[_ [w [e [Ho _]]]] _]. destruct G as [cb fb hb hb' Nb _]. unfold parse_end, top_frame. cbn [cur ctx] in *.
  destruct fb as [|f' fs']; [congruence|]. destruct (graft_cons p body f' fs') as [g [Eg [Kg _]]]. rewrite Eg. cbn [bind].
  unfold check_missing_if_try_loops. rewrite !Kg. intros E.
  destruct (is_function (f_kind f')) eqn:K1; [discriminate|]. destruct (is_if_part (f_kind f')) eqn:K2; [discriminate|].
  destruct (is_try_part (f_kind f')) eqn:K3; [discriminate|]. destruct (is_while (f_kind f')) eqn:K4; [discriminate|].
  destruct (is_for (f_kind f')) eqn:K5; [discriminate|]. cbn [bind] in E.
  assert (Ek : f_kind f' = FTop) by (destruct (f_kind f'); try discriminate; auto).
  destruct (top_only _ _ _ _ _ _ Ho Ek) as [bd Eb]. injection Eb as -> ->. cbn [graft] in Eg. injection Eg as <-. cbn [base f_pos f_body] in E.
  injection E as <-. eauto.
Qed.

(** * The whole text *)

Lemma first_spells s k : forall i ln col off, spells s (put_first s i ln col off k) (k (i + N.of_nat (length s))).
Proof.
  induction s as [|r s IH]; intros i ln col off; cbn [put_first length]; [rewrite N.add_0_r; reflexivity|].
  replace (i + N.of_nat (S (length s))) with (i + 1 + N.of_nat (length s)) by lia. cbn [spells]. split; [reflexivity|]. apply IH.
Qed.
Lemma ascii_blen s : forallb (fun r => isalpha r || iswhite r) s = true -> blen s = N.of_nat (length s).
Proof.
  induction s as [|r s IH]; [reflexivity|]. cbn [forallb]. intros H. apply andb_true_iff in H. destruct H as [H1 H2].
  cbn [blen length]. rewrite (IH H2). assert (rune_len r = 1); [|lia].
  unfold rune_len. replace (r <? 128) with true; [reflexivity|]. symmetry. unfold isalpha, isupper, islower, iswhite, between in H1. cbn in H1. lia.
Qed.
Lemma vim_alone neovim k g r l ts : expr_command neovim k -> Written.gap g -> iswhite r = false -> r <> C "|" ->
  (g = [] -> isalpha r = false /\ r <> C "!") -> wf (new_reader ((k ++ g ++ r :: l) :: ts)) ->
  let w := N.of_nat (length (k ++ g)) in
  match parse_expr (new_reader ((r :: l) :: ts)) with
  | Ok (v, _) => forall u, vim_parse neovim (new_reader ((k ++ g ++ r :: l) :: ts)) = Ok u ->
      exists p n more, u = VToplevel p (n :: more) /\ has_first (map_pos (ind w) v) n
  | PErr e => exists m q, e = Err_ m q /\ vim_parse neovim (new_reader ((k ++ g ++ r :: l) :: ts)) = PErr (Err_ m (ind w q))
  | _ => True
  end.
Proof.
  intros [x [Hx Hn]] Hg Hr1 Hr2 Hr3 W w. pose proof (expr_parser _ _ _ Hx Hn) as HP. destruct (expr_entry _ HP) as [HP' [F [HF RF]]]. clear HP.
  destruct (stmt_word _ _ _ Hx HP') as [Hgw _].
  assert (Hal : forallb (fun r => isalpha r || iswhite r) (k ++ g) = true).
  { rewrite forallb_app. apply andb_true_iff. split; apply forallb_forall; intros y Hy.
    - destruct k as [|y0 k]; [destruct Hy|]. unfold good_word in Hgw. repeat (apply andb_true_iff in Hgw; destruct Hgw as [Hgw ?]).
      match goal with H : forallb isalpha _ = true |- _ => rewrite forallb_forall in H; rewrite (H y Hy); reflexivity end.
    - unfold Written.gap in Hg. rewrite forallb_forall in Hg. rewrite (Hg y Hy). apply orb_true_r. }
  set (c := new_reader ((k ++ g ++ r :: l) :: ts)) in *.
  set (d := put_first (r :: l) w 1 w w (fun i => build_more ts i 1 (blen (r :: l) + w) (blen (r :: l) + w))).
  assert (Ec : c = put_first (k ++ g) 0 1 0 0 (fun i' => put_first (r :: l) i' 1 w w (fun i => build_more ts i 1 (blen (r :: l) + w) (blen (r :: l) + w)))).
  { unfold c. rewrite app_assoc. cbn [new_reader]. rewrite first_join, (ascii_blen _ Hal). fold w. rewrite blen_join, (ascii_blen _ Hal). fold w. rewrite (N.add_comm w (blen (r :: l))). reflexivity. }
  assert (Sm : sim false (Eof (mkPos 0 0 0 0)) (Eof (mkPos 0 0 0 0)) (ind w) same (new_reader ((r :: l) :: ts)) d).
  { cbn [new_reader]. unfold d. apply (ind_first1 w _ _ (r :: l) _ _ 0 0 0). cbn [N.add]. apply ind_build; lia. }
  assert (S1 : spells (k ++ g) c d). { rewrite Ec. exact (first_spells (k ++ g) _ 0 1 0 0). }
  assert (S2 := first_spells (r :: l) (fun i => build_more ts i 1 (blen (r :: l) + w) (blen (r :: l) + w)) w 1 w w). fold d in S2.
  cbv beta in S2. match type of S2 with spells _ _ ?x => remember x as k' eqn:Ek' end. clear Ek'.
  assert (Cm : command neovim (c_parser x) (r :: l) (mkAEa false [] 0 false 0 0 0 [] [] [] (Some (mkAPos 0 0 0 [])) (Some (mkAPos 0 0 0 [])) (Some (mkAPos 0 0 0 [])) (Some x) [] []) (k ++ g)).
  { apply cm_plain; auto. intros E. cbn [head_not]. destruct (Hr3 E) as [A1 A2]. rewrite A1. cbn [orb]. lia. }
  destruct (head_step neovim (c_parser x) (r :: l) _ (k ++ g) [] c c d k' [mkFrame FTop (getpos c) ea0 []] [] eq_refl eq_refl Cm HP' S1 S2 ltac:(discriminate) ltac:(constructor) W)
    as [e [y [line [cmdc [arg [ch' [Y1 [Y2 [_ [_ [Hch [He Eq]]]]]]]]]]]].
  injection Y2 as <-.
  assert (Pd : peek d = CR r) by reflexivity.
  assert (Es : skip_white d = d). { apply FindBack.skip_not. rewrite Pd. exact Hr1. }
  rewrite Es in Eq. rewrite (dispatch_is (c_parser x) F) in Eq by auto.
  pose proof (RF (mkEc e line cmdc arg x) (mkSt d [mkFrame FTop (getpos c) ea0 []] ch') _ _ eq_refl) as R. cbn [cur] in R.
  specialize (R ltac:(rewrite Pd; intros r0 E0; injection E0 as <-; auto) ltac:(eauto)).
  pose proof (parse_expr_sim false _ _ _ _ _ _ Sm) as G. apply orel_closed in G; [|reflexivity].
  assert (Wd : wf d). { eapply wf_sfx; [apply spells_sfx with (s := k ++ g); exact S1|exact W]. }
  pose proof (parse_expr_esafe (D := fun _ _ => True) d d Wd (sfx_refl d) (or_introl I)) as Ed.
  pose proof (one_safe neovim c W _ (inv_start neovim c) He) as Os.
  destruct (parse_expr (new_reader ((r :: l) :: ts))) as [[v c1]|e0| |]; auto.
  - destruct (parse_expr d) as [[v' c1']| | |]; cbn [esafe] in Ed; try contradiction; try discriminate G.
    + destruct G as [G _]. cbn [fst] in G. unfold vrel, same in G. rewrite map_pos_same in G.
      intros u Hu. unfold vim_parse in Hu. cbn [cmds_loop cur] in Hu. rewrite He in Hu. rewrite Eq in Hu, Os.
      destruct (F _ _) as [st2| | |] eqn:E2; try discriminate Hu. cbn [bind] in Hu, Os. destruct (R _ eq_refl) as [n [Hf Hc]].
      destruct (parse_trail st2) as [st3| | |] eqn:E3; try discriminate Hu. cbn [bind csafe] in Hu, Os.
      destruct Os as [Oi Ol]. pose proof (inv_sfx _ _ _ Oi) as Osx. destruct Oi as [Ock _].
      assert (Eb : exists more, ctx st3 = [mkFrame FTop (getpos c) ea0 (n :: more)]).
      { destruct (trail_ctx _ _ E3) as [Z|[f [r0 [n0 [Z1 Z2]]]]].
        - rewrite Z, Hc. exists []. reflexivity.
        - rewrite Hc in Z1. injection Z1 as <- <-. rewrite Z2. exists [n0]. reflexivity. }
      destruct Eb as [more Eb]. destruct st3 as [c3 fr3 ch3]. cbn [ctx cur cache] in *. subst fr3.
      assert (Hu' : bind (cmds_loop neovim (clen c) (mkSt c3 [mkFrame FTop (getpos c) ea0 (n :: more)] ch3)) parse_end = Ok u) by exact Hu.
      apply rest_keeps in Hu'; auto; [|eapply wf_sfx; eauto]. destruct Hu' as [mm ->]. exists (getpos c), n, (more ++ mm). split; [reflexivity|]. rewrite G. exact Hf.
  - destruct (parse_expr d) as [[v' c1']|e'| |]; cbn [esafe] in Ed; try contradiction; try discriminate G.
    + destruct G as [mm [q1 [q2 [Pq [E1 ->]]]]]. unfold prel, same in Pq. subst q2. exists mm, q1. split; [exact E1|].
      unfold vim_parse. cbn [cmds_loop cur]. rewrite He, Eq, R. reflexivity.
Qed.

Lemma first_export file v n b e w : has_first (map_pos (ind w) v) n -> new_ast [] v = Ok e -> is_expr e = true -> export_stmt file n = Ok b ->
  first_expr b = Some (map_node (behind_command file w) e).
Proof.
  intros H E Q X.
  assert (M : new_ast file (map_pos (ind w) v) = Ok (map_node (behind_command file w) e)).
  { rewrite (new_ast_map [] file (ind w) (behind_command file w)); [rewrite E; reflexivity|]. intros []. reflexivity. }
  assert (Q' : is_expr (map_node (behind_command file w) e) = true) by (rewrite is_expr_map; exact Q).
  unfold export_stmt in X. destruct n; cbn [has_first] in H; try contradiction.
  - subst. cbn [new_ast] in X. rewrite M in X. cbn [bind] in X. unfold to_expr in X. rewrite Q' in X. injection X as <-. reflexivity.
  - subst. cbn [new_ast] in X. rewrite M in X. cbn [bind] in X. unfold to_expr in X. rewrite Q' in X. injection X as <-. reflexivity.
  - destruct H as [t ->]. cbn [new_ast mapM] in X. destruct (ea_cmd _); [|discriminate]. rewrite M in X. cbn [bind] in X. unfold expr_elem in X at 1. rewrite Q' in X. cbn [bind] in X.
    destruct (mapM _ t); try discriminate X. injection X as <-. reflexivity.
  - destruct H as [t ->]. cbn [new_ast mapM] in X. rewrite M in X. cbn [bind] in X. unfold expr_elem in X at 1. rewrite Q' in X. cbn [bind] in X.
    destruct (mapM _ t); try discriminate X. injection X as <-. reflexivity.
Qed.
Lemma file_alone bs bs' b b' k g r l ts file opt : seen_lines bs ((r :: l) :: ts) -> seen_lines bs' ((k ++ g ++ r :: l) :: ts) ->
  expr_command (neovim_of opt) k -> Written.gap g -> iswhite r = false -> r <> C "|" -> (g = [] -> isalpha r = false /\ r <> C "!") ->
  (forall p body, ParseFile (mkSource bs' b') file opt = Returned (NFile p body) ->
     exists n s more, ParseExpr (mkSource bs b) = Returned (Some n) /\ body = s :: more /\
       first_expr s = Some (map_node (behind_command file (N.of_nat (length (k ++ g)))) n)) /\
  (forall e, ParseExpr (mkSource bs b) = Failed e ->
     ParseFile (mkSource bs' b') file opt = Failed (error_behind file (N.of_nat (length (k ++ g))) e)).
Proof.
  intros L L' Hk Hg H1 H2 H3. pose proof (open_source_wf (mkSource bs b)) as WB. pose proof (open_source_wf (mkSource bs' b')) as W.
  pose proof (parse_expr_esafe (D := fun _ _ => True) _ _ WB (sfx_refl _) (or_introl I)) as Es.
  unfold ParseFile, parse_to_ast, ParseExpr, parse_expr_to_ast. fold (neovim_of opt).
  rewrite (seen_open _ _ _ L) in *. rewrite (seen_open _ _ _ L') in *.
  pose proof (vim_alone (neovim_of opt) k g r l ts Hk Hg H1 H2 H3 W) as G. cbv zeta in G.
  pose proof (vim_parse_safe (neovim_of opt) _ W) as VB.
  destruct (parse_expr (new_reader ((r :: l) :: ts))) as [[v c1]|e| |]; cbn [esafe] in Es; try contradiction.
  - destruct (dexpr_exports [] _ _ _ _ Es) as [n [Hn Hq]]. cbn [bind]. rewrite Hn. cbn [bind recovered]. unfold to_expr. rewrite Hq.
    split; [|discriminate]. intros p body E.
    destruct (vim_parse _ _) as [u| | |] eqn:Eu; try discriminate E. cbn [bind] in E. destruct (G u eq_refl) as [p1 [n1 [more [-> Hf]]]].
    cbn [new_ast] in E. fold (export_stmt file) in E. cbn [mapM] in E.
    destruct (export_stmt file n1) as [s1| | |] eqn:E1; try discriminate E. cbn [bind] in E. destruct (mapM (export_stmt file) more) as [ss| | |]; try discriminate E.
    injection E as <- <-. exists n, s1, ss. split; [reflexivity|]. split; [reflexivity|]. eapply first_export; eauto.
  - destruct G as [m [q [-> G]]]. rewrite G. cbn [bind recovered]. split; [discriminate|]. intros e E. injection E as <-. reflexivity.
Qed.
