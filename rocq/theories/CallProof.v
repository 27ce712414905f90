(** The argument of :call and the same expression by itself: the proofs. *)
From Coq Require Import Lia ZifyBool ZifyNat ZifyN.
From Verif Require Import Base Utf8 CharClass Reader Vnode Token Ast Tokenizer ExprParser CmdTable CmdParser Export Api
  Cursor Grammar Sim SimCmd SimLoop Graft Places LinesProof ApiExpr ApiFile ScriptExport ExportSafe ExprSafe Script CmdBase CmdOpen CmdLoop Nodes Join JoinProof Sequel SequelProof JsonProof NodeText
  TokSafe IndentProof Head Written WrittenProof WrittenScript TargetProof ArgsProof FindBack LineProof AloneProof AssignProof.

Definition is_vcall (v : vnode) : bool := match v with VCall _ _ _ => true | _ => false end.

Lemma ast_of_call file v n : new_ast file v = Ok n -> is_call n = is_vcall v.
Proof.
  destruct v; cbn [new_ast]; intros E;
    repeat match type of E with
    | bind ?o _ = Ok _ => destruct o; try discriminate E; cbn [bind] in E
    | (match ?o with _ => _ end) = Ok _ => destruct o; try discriminate E
    end; try (injection E as <-; reflexivity).
Qed.
Lemma ast_pos file v n : new_ast file v = Ok n -> npos n = new_pos file (vpos v).
Proof.
  destruct v; cbn [new_ast]; intros E;
    repeat match type of E with
    | bind ?o _ = Ok _ => destruct o; try discriminate E; cbn [bind] in E
    | (match ?o with _ => _ end) = Ok _ => destruct o; try discriminate E
    end; try (injection E as <-; reflexivity).
Qed.
Lemma call_mapped f v : is_vcall (map_pos f v) = is_vcall v.
Proof. destruct v; reflexivity. Qed.
Lemma pos_mapped f v : vpos (map_pos f v) = f (vpos v).
Proof. destruct v; reflexivity. Qed.

Lemma vim_call neovim h a (x : text) ts : command neovim (T "parse_cmd_call") x a h ->
  x <> [] -> head_not (fun r => iswhite r || (r =? C "|") || (r =? C """")) x -> Forall (fun r => r < 128) h -> wf (new_reader ((h ++ x) :: ts)) ->
  let w := N.of_nat (length h) in
  match parse_expr (new_reader (x :: ts)) with
  | Ok (v0, _) => 
      if is_vcall v0 then forall t, vim_parse neovim (new_reader ((h ++ x) :: ts)) = Ok t ->
        exists p q e more, t = VToplevel p (VExcall q e (map_pos (ind w) v0) :: more)
      else vim_parse neovim (new_reader ((h ++ x) :: ts)) = PErr (Err_ (T "Not an function call") (ind w (vpos v0)))
  | PErr e => exists m q, e = Err_ m q /\ vim_parse neovim (new_reader ((h ++ x) :: ts)) = PErr (Err_ m (ind w q))
  | _ => True
  end.
Proof.
  intros Cm Hs1 Hs2 Hal W w.
  set (c := new_reader ((h ++ x) :: ts)) in *.
  set (d := put_first x w 1 w w (fun i => build_more ts i 1 (blen x + w) (blen x + w))).
  assert (Ec : c = put_first h 0 1 0 0 (fun i' => put_first x i' 1 w w (fun i => build_more ts i 1 (blen x + w) (blen x + w)))).
  { unfold c. cbn [new_reader]. rewrite first_join, (small_blen _ Hal). fold w. rewrite blen_join, (small_blen _ Hal). fold w. rewrite (N.add_comm w (blen x)). reflexivity. }
  assert (Sm : sim false (Eof (mkPos 0 0 0 0)) (Eof (mkPos 0 0 0 0)) (ind w) same (new_reader (x :: ts)) d).
  { cbn [new_reader]. unfold d. apply (ind_first1 w _ _ x _ _ 0 0 0). cbn [N.add]. apply ind_build; lia. }
  assert (S1 : spells h c d). { rewrite Ec. exact (first_spells h _ 0 1 0 0). }
  assert (S2 := first_spells x (fun i => build_more ts i 1 (blen x + w) (blen x + w)) w 1 w w). fold d in S2.
  cbv beta in S2. match type of S2 with spells _ _ ?y => remember y as k' eqn:Ek' end. clear Ek'.
  destruct (head_step neovim (T "parse_cmd_call") x a h [] c c d k' [mkFrame FTop (getpos c) ea0 []] [] eq_refl eq_refl Cm ltac:(apply mem_text_In; reflexivity) S1 S2 ltac:(intros Z; contradiction (Hs1 Z)) ltac:(constructor) W)
    as [e [y [line [cmdc [arg [ch' [Y1 [Y2 [_ [_ [Hch [He Eq]]]]]]]]]]]].
  assert (Hpk : exists r, peek d = CR r /\ iswhite r = false /\ (r =? C "|") || (r =? C """") = false).
  { destruct x as [|s0 s]; [congruence|]. apply spells_head in S2. destruct S2 as [? [? [-> _]]]. exists s0. split; [reflexivity|]. cbn [head_not] in Hs2. destruct (iswhite s0); [discriminate Hs2|]. auto. }
  destruct Hpk as [r [Pr [Hr1 Hr2]]].
  assert (Esk : skip_white d = d). { apply FindBack.skip_not. rewrite Pr. exact Hr1. }
  rewrite Esk in Eq. rewrite (dispatch_is (T "parse_cmd_call") parse_cmd_call) in Eq by auto.
  assert (Ecall : parse_cmd_call (mkEc e line cmdc arg y) (mkSt d [mkFrame FTop (getpos c) ea0 []] ch') =
    let* '(v, c1) := parse_expr d in
    match v with
    | VCall _ _ _ => add_node (VExcall (getpos cmdc) e v) (mkSt c1 [mkFrame FTop (getpos c) ea0 []] ch')
    | _ => raise (T "Not an function call") (vpos v)
    end).
  { unfold parse_cmd_call. cbn [cur]. rewrite Esk, Pr. unfold ends_excmds. rewrite Hr2. reflexivity. }
  rewrite Ecall in Eq. clear Ecall.
  pose proof (parse_expr_sim false _ _ _ _ _ _ Sm) as G. apply orel_closed in G; [|reflexivity].
  assert (Wd : wf d). { eapply wf_sfx; [apply spells_sfx with (s := h); exact S1|exact W]. }
  pose proof (parse_expr_esafe (D := fun _ _ => True) d d Wd (sfx_refl d) (or_introl I)) as Ed.
  pose proof (one_safe neovim c W _ (inv_start neovim c) He) as Os.
  destruct (parse_expr (new_reader (x :: ts))) as [[v0 c1]|e0| |]; auto.
  - destruct (parse_expr d) as [[v' c1']| | |]; cbn [esafe] in Ed; try contradiction; try discriminate G.
    destruct G as [G _]. cbn [fst] in G. unfold vrel, same in G. rewrite map_pos_same in G. cbn [bind] in Eq. rewrite <- G in Eq.
    destruct (is_vcall v0) eqn:Ev.
    + intros t Hu. unfold vim_parse in Hu. cbn [cmds_loop cur] in Hu. rewrite He in Hu. 
      assert (Eq' : parse_one_cmd neovim (mkSt c [mkFrame FTop (getpos c) ea0 []] []) =
        let* st2 := add_node (VExcall (getpos cmdc) e (map_pos (ind w) v0)) (mkSt c1' [mkFrame FTop (getpos c) ea0 []] ch') in parse_trail st2).
      { rewrite Eq. destruct v0; try discriminate Ev. reflexivity. }
      rewrite Eq' in Hu, Os. clear Eq Eq'. unfold add_node, with_ctx in Hu, Os. cbn [ctx cur cache bind] in Hu, Os. unfold add_body in Hu, Os. cbn [f_kind f_pos f_ea f_body app] in Hu, Os.
      match type of Hu with context [parse_trail ?s] => destruct (parse_trail s) as [st3| | |] eqn:E3 end; try discriminate Hu. cbn [bind csafe] in Hu, Os.
      destruct Os as [Oi Ol]. pose proof (inv_sfx _ _ _ Oi) as Osx. destruct Oi as [Ock _].
      assert (Eb : exists more, ctx st3 = [mkFrame FTop (getpos c) ea0 (VExcall (getpos cmdc) e (map_pos (ind w) v0) :: more)]).
      { destruct (trail_ctx _ _ E3) as [Z|[f [r0 [n0 [Z1 Z2]]]]]; cbn [ctx] in *.
        - rewrite Z. exists []. reflexivity.
        - injection Z1 as <- <-. rewrite Z2. exists [n0]. reflexivity. }
      destruct Eb as [more Eb]. destruct st3 as [c3 fr3 ch3]. cbn [ctx cur cache] in *. subst fr3.
      assert (Hu' : bind (cmds_loop neovim (clen c) (mkSt c3 [mkFrame FTop (getpos c) ea0 (VExcall (getpos cmdc) e (map_pos (ind w) v0) :: more)] ch3)) parse_end = Ok t) by exact Hu.
      apply rest_keeps in Hu'; auto; [|eapply wf_sfx; eauto]. destruct Hu' as [mm ->]. exists (getpos c), (getpos cmdc), e, (more ++ mm). reflexivity.
    + unfold vim_parse. cbn [cmds_loop cur]. rewrite He, Eq. rewrite <- (pos_mapped (ind w) v0).
      destruct v0; try discriminate Ev; reflexivity.
  - destruct (parse_expr d) as [[v' c1']|e'| |]; cbn [esafe] in Ed; try contradiction; try discriminate G.
    destruct G as [mm [q1 [q2 [Pq [E1 ->]]]]]. unfold prel, same in Pq. subst q2. exists mm, q1. split; [exact E1|].
    unfold vim_parse. cbn [cmds_loop cur]. rewrite He, Eq. reflexivity.
Qed.

Lemma file_call bs bs' b b' a (pre x : text) ts file opt : seen_lines bs (x :: ts) -> seen_lines bs' ((pre ++ x) :: ts) ->
  command (neovim_of opt) (T "parse_cmd_call") x a pre -> x <> [] -> head_not (fun r => iswhite r || (r =? C "|") || (r =? C """")) x ->
  Forall (fun y => y < 128) pre ->
  (forall p body, ParseFile (mkSource bs' b') file opt = Returned (NFile p body) ->
     exists n q e more, ParseExpr (mkSource bs b) = Returned (Some n) /\ is_call n = true /\
       body = NExCall q e (Some (map_node (behind_command file (N.of_nat (length pre))) n)) :: more) /\
  (forall e, ParseExpr (mkSource bs b) = Failed e ->
     ParseFile (mkSource bs' b') file opt = Failed (error_behind file (N.of_nat (length pre)) e)) /\
  (forall n, ParseExpr (mkSource bs b) = Returned (Some n) -> is_call n = false ->
     exists i, ParseFile (mkSource bs' b') file opt = Failed (ErrVimlParser file i
       (ap_line (behind_command file (N.of_nat (length pre)) (npos n))) (ap_column (behind_command file (N.of_nat (length pre)) (npos n)))
       (T "Not an function call"))).
Proof.
  intros L L' Ha Hx Hh Hs. pose proof (open_source_wf (mkSource bs b)) as WB. pose proof (open_source_wf (mkSource bs' b')) as W.
  pose proof (parse_expr_esafe (D := fun _ _ => True) _ _ WB (sfx_refl _) (or_introl I)) as Es.
  unfold ParseFile, parse_to_ast, ParseExpr, parse_expr_to_ast. fold (neovim_of opt).
  rewrite (seen_open _ _ _ L) in *. rewrite (seen_open _ _ _ L') in *.
  pose proof (vim_call (neovim_of opt) pre a x ts Ha Hx Hh Hs W) as G. cbv zeta in G.
  destruct (parse_expr (new_reader (x :: ts))) as [[v c1]|e| |]; cbn [esafe] in Es; try contradiction.
  - destruct (dexpr_exports [] _ _ _ _ Es) as [n [Hn Hq]]. cbn [bind]. rewrite Hn. cbn [bind recovered]. unfold to_expr. rewrite Hq.
    pose proof (ast_of_call _ _ _ Hn) as Hc. destruct (is_vcall v).
    + split; [|split; [discriminate|intros n' E; injection E as <-; congruence]]. intros p body E.
      destruct (vim_parse _ _) as [u| | |] eqn:Eu; try discriminate E. cbn [bind] in E. destruct (G u eq_refl) as [p1 [q [e [more ->]]]].
      cbn [new_ast] in E. fold (export_stmt file) in E. cbn [mapM] in E.
      destruct (export_stmt file (VExcall _ _ _)) as [s1| | |] eqn:E1; try discriminate E. cbn [bind] in E. destruct (mapM (export_stmt file) more) as [ss| | |]; try discriminate E.
      injection E as <- <-.
      assert (M : new_ast file (map_pos (ind (N.of_nat (length pre))) v) = Ok (map_node (behind_command file (N.of_nat (length pre))) n)).
      { rewrite (new_ast_map [] file (ind (N.of_nat (length pre))) (behind_command file (N.of_nat (length pre)))); [rewrite Hn; reflexivity|]. intros []. reflexivity. }
      unfold export_stmt in E1. cbn [new_ast] in E1. rewrite M in E1. cbn [bind] in E1.
      assert (Hm : is_call (map_node (behind_command file (N.of_nat (length pre))) n) = true) by (destruct n; try discriminate Hc; reflexivity).
      unfold assert_node at 1 in E1. rewrite Hm in E1. cbn [bind] in E1. injection E1 as <-. exists n. do 3 eexists. split; [reflexivity|]. split; [exact Hc|reflexivity].
    + rewrite G. cbn [bind recovered]. split; [discriminate|]. split; [discriminate|]. intros n' E _. injection E as <-.
      rewrite (ast_pos _ _ _ Hn). eexists. reflexivity.
  - destruct G as [m [q [-> G]]]. rewrite G. cbn [bind recovered]. split; [discriminate|]. split; [|discriminate]. intros e E. injection E as <-. reflexivity.
Qed.
