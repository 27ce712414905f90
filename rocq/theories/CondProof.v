(** The condition of a block and the same expression by itself: the proofs. *)
From Coq Require Import Lia ZifyBool ZifyNat ZifyN.
From Verif Require Import Base Utf8 CharClass Reader Vnode Token Ast Tokenizer ExprParser CmdTable CmdParser Export Api
  Cursor Grammar Sim SimCmd SimLoop Graft Places LinesProof ApiExpr ApiFile ScriptExport ExportSafe ExprSafe Script CmdBase CmdOpen CmdLoop Nodes Join JoinProof Sequel SequelProof JsonProof NodeText
  TokSafe IndentProof Head Written WrittenProof WrittenScript TargetProof ArgsProof FindBack LineProof AloneProof AssignProof HeapParser HeapProof GrowProof.

(** * The specification *)

(** The blocks with an expression in their first line; :for has the target [l], or the list
    [ls] with the rest [r]. *)
Inductive block_of := BIf | BWhile | BFor (l : option node) (ls : list node) (r : option node).
(** [block_head nv x b pre]: the text [pre] is the first line of such a block up to its
    expression, which starts with the text [x]. *)
Inductive block_head (nv : bool) (x : text) : block_of -> text -> Prop :=
| bh_if a h : command nv (T "parse_cmd_if") x a h -> head_not iswhite x -> block_head nv x BIf h
| bh_while a h : command nv (T "parse_cmd_while") x a h -> head_not iswhite x -> block_head nv x BWhile h
| bh_for l ls r a h sl w1 : command nv (T "parse_cmd_for") sl a h -> written_lhs variable w1 (T "in") l ls r sl -> gap w1 ->
    head_not isalpha x -> block_head nv x (BFor l ls r) (h ++ sl ++ w1 ++ T "in").
(** The statement is such a block with the expression [v]. *)
Definition is_block (b : block_of) (v s : node) : Prop :=
  match b, s with
  | BIf, NIf _ _ _ (Some c) _ _ _ => c = v
  | BWhile, NWhile _ _ _ (Some c) _ => c = v
  | BFor l ls r, NFor _ _ _ l' ls' r' (Some c) _ => c = v /\ option_map unplaced l' = option_map unplaced l /\
      map unplaced ls' = map unplaced ls /\ option_map unplaced r' = option_map unplaced r
  | _, _ => False
  end.

(** * The commands *)

Definition opens_kind (b : block_of) (v : vnode) (k : hkind) : Prop :=
  match b, k with
  | BIf, HIf c => c = v
  | BWhile, HWhile c => c = v
  | BFor l ls r, HFor l' ls' r' c => c = v /\ shows_opt l' l /\ Forall2 shows ls' ls /\ shows_opt r' r
  | _, _ => False
  end.
Definition frame_kind (k : hkind) : fkind :=
  match k with
  | HIf c => FIf c [] None | HWhile c => FWhile c | HFor l ls r c => FFor l ls r c | _ => FTop
  end.
Definition reads_cond (F : ectx -> pstate -> outcome pstate) (u x : text) (b : block_of) : Prop :=
  forall ec st d k, wf (cur st) -> spells u (cur st) d -> spells x d k ->
  match parse_expr d with
  | Ok (v, _) => forall st', F ec st = Ok st' -> exists n p e, opens_kind b v n /\ ctx st' = mkFrame (frame_kind n) p e [] :: ctx st
  | PErr e => F ec st = PErr e
  | Panic k => F ec st = Panic k
  | OutOfFuel => True
  end.
Lemma if_cond x : reads_cond parse_cmd_if [] x BIf.
Proof.
  intros ec st d k _ Sp _. cbn [spells] in Sp. subst d. unfold parse_cmd_if. destruct (parse_expr (cur st)) as [[v c1]| | |]; cbn [bind]; auto.
  intros st' E. injection E as <-. exists (HIf v). do 2 eexists. split; reflexivity.
Qed.
Lemma while_cond x : reads_cond parse_cmd_while [] x BWhile.
Proof.
  intros ec st d k _ Sp _. cbn [spells] in Sp. subst d. unfold parse_cmd_while. destruct (parse_expr (cur st)) as [[v c1]| | |]; cbn [bind]; auto.
  intros st' E. injection E as <-. exists (HWhile v). do 2 eexists. split; reflexivity.
Qed.
Lemma for_cond l ls r sl w1 x : written_lhs variable w1 (T "in") l ls r sl -> gap w1 -> head_not isalpha x -> x <> [] ->
  reads_cond parse_cmd_for (sl ++ w1 ++ T "in") x (BFor l ls r).
Proof.
  intros Hlh Hw1 Hx Hn ec st d3 k Wd Sp Sx. apply spells_split in Sp. destruct Sp as [d1 [S1 Sp]]. apply spells_split in Sp. destruct Sp as [d2 [S2 S3]].
  destruct (read_lhs variable parse_lvalue w1 (T "in") l ls r sl (cur st) d1 d3) as [l' [ls' [r' [El' [Sl1 [Sl2 Sl3]]]]]]; auto.
  { intros nn ss cc kk Z1 Z2 Z3 Z4 Z5. exact (read_lvalue nn ss [] cc kk Z1 Z2 eq_refl Z3 Z4 Z5). }
  { left. reflexivity. }
  { apply (Cursor.spells_app w1 (T "in") d1 d2 d3); auto. }
  assert (Hsk : skip_white d1 = d2). { apply (skip_gap w1); auto. clear - S3. apply spells_head in S3. destruct S3 as [? [? [-> _]]]. reflexivity. }
  assert (Hal : ch_in isalpha (peek d3) = false).
  { destruct x as [|y x]; [congruence|]. apply spells_head in Sx. destruct Sx as [? [? [-> _]]]. exact Hx. }
  unfold parse_cmd_for. rewrite El'. cbn [bind]. rewrite Hsk. unfold read_alpha. rewrite (read_while_exact isalpha (T "in") d2 d3 S3 eq_refl Hal).
  change (negb (text_eqb (T "in") (T "in"))) with false. cbn match. destruct (parse_expr d3) as [[v c1]| | |]; cbn [bind]; auto.
  intros st' E. injection E as <-. exists (HFor l' ls' r' v). do 2 eexists. split; [|reflexivity]. cbn [opens_kind]. auto.
Qed.

(** * The rest of the file *)

(** The end of the run from any pair of states. *)
Lemma heap_end neovim m st hs v : R_st st hs -> bind (cmds_loop neovim m st) parse_end = Ok v ->
  exists hs' n, h_cmds_loop neovim m hs = Ok hs' /\ follow n (h_store hs') 0 = Some v.
Proof.
  intros H. pose proof (s_loop neovim m _ _ H) as L.
  destruct (cmds_loop _ _ _) as [st1| | |]; [|discriminate|discriminate|discriminate].
  destruct (h_cmds_loop _ _ _) as [hs1| | |]; cbn [rel_out] in L; try contradiction. cbn [bind]. intros E.
  destruct (rel_ctx _ _ _ L) as (a & l & f & fs & d & El & Ef & Ed & Nd).
  unfold parse_end, top_frame in E. rewrite Ef in E. cbn [bind] in E.
  pose proof (r_stack _ _ _ L) as D. rewrite El, Ef in D.
  unfold check_missing_if_try_loops in E.
  destruct (f_kind f) eqn:K; try discriminate E. cbn in E. injection E as <-.
  destruct D as [_ D]. destruct l as [|b l]; destruct fs as [|g fs]; try contradiction;
    [|destruct D as [_ [Fi _]]; rewrite K in Fi; destruct Fi].
  destruct D as [-> _]. exists hs1, (length (h_store hs1) - 0)%nat. split; [reflexivity|].
  assert (G : gfollow (fun _ => true) (length (h_store hs1) - 0) (h_store hs1) 0 = Some (finished f (n_end d))).
  { apply (complete (outside (h_ctx hs1)) (h_store hs1) 0 d f); auto. }
  apply gfollow_follow in G. rewrite G. unfold finished. rewrite K. reflexivity.
Qed.

Lemma follow_body_nil g l : follow_body g l = Some [] -> l = [].
Proof. destruct l as [|x l]; [reflexivity|]. cbn [follow_body]. destruct (match x with Leaf v => Some v | Ptr a => g a end); [|discriminate]. destruct (follow_body g l); discriminate. Qed.

(** The tree of a block, whatever has been put into it. *)
Definition block_tree (b : block_of) (v n : vnode) : Prop :=
  match b, n with
  | BIf, VIf _ _ _ c _ _ _ => c = v
  | BWhile, VWhile _ _ _ c _ => c = v
  | BFor l ls r, VFor _ _ _ l' ls' r' c _ => c = v /\ shows_opt l' l /\ Forall2 shows ls' ls /\ shows_opt r' r
  | _, _ => False
  end.
Lemma block_keeps neovim m st hs k p e body p0 v b u : R_st st hs -> opens_kind b v k ->
  ctx st = [mkFrame (frame_kind k) p e body; mkFrame FTop p0 ea0 []] ->
  bind (cmds_loop neovim m st) parse_end = Ok u -> exists n more, u = VToplevel p0 (n :: more) /\ block_tree b v n.
Proof.
  intros H Ho Hc E. destruct (heap_end _ _ _ _ _ H E) as [hs' [n [Eh Fo]]].
  pose proof (g_loop neovim m (h_store hs) hs (grow_refl _)) as G. rewrite Eh in G. cbn [grows] in G.
  pose proof (r_stack _ _ _ H) as Sr. rewrite Hc in Sr.
  destruct (h_ctx hs) as [|a l]; [destruct Sr|]. cbn [stack_rel] in Sr. destruct Sr as [[d [Ed Nd]] Sr].
  destruct l as [|a0 l]; [destruct Sr|]. destruct Sr as [_ [_ Sr]]. cbn [stack_rel] in Sr. destruct Sr as [[d0 [Ed0 Nd0]] Sr].
  destruct l as [|? ?]; [|destruct Sr]. destruct Sr as [-> _].
  assert (Hk : n_kind d = k).
  { destruct Nd as [_ _ (? & ? & ? & ? & ? & ? & ? & ? & ? & _ & _ & _ & _ & _ & _ & _ & _ & _ & _ & K)]. cbn [f_kind] in K.
    destruct b, k; cbn [opens_kind] in Ho; try contradiction; cbn [frame_kind] in K; destruct (n_kind d); cbn [kind_rel] in K; try discriminate K; congruence. }
  assert (Hb : n_body d0 = [Ptr a] /\ n_pos d0 = p0 /\ n_kind d0 = HTop).
  { destruct Nd0 as [Np _ (bd & ? & ? & ? & ? & ? & ? & ? & ? & B & _ & _ & _ & _ & Fb & _ & _ & _ & _ & K)]. cbn [f_kind f_body f_pos] in *.
    apply follow_body_nil in Fb. subst bd. split; [|split; [exact Np|]].
    - rewrite B. destruct b, k; cbn [opens_kind] in Ho; try contradiction; reflexivity.
    - destruct (n_kind d0); cbn [kind_rel] in K; congruence. }
  destruct Hb as [Hb [Hp Hk0]].
  destruct (G _ _ Ed0) as [d0' [Ed0' (L1 & L2 & _ & [more L4] & _)]]. destruct (G _ _ Ed) as [d' [Ed' (M1 & _)]].
  destruct n as [|n]; [discriminate Fo|]. cbn [follow] in Fo. rewrite Ed0' in Fo. rewrite L4, Hb in Fo. cbn [app follow_body] in Fo.
  destruct (follow n (h_store hs') a) as [na|] eqn:Ea; [|discriminate Fo].
  destruct (follow_body (follow n (h_store hs')) more) as [vs|]; [|discriminate Fo].
  destruct (follow_list _ (n_elseif d0')) as [x1|]; [|discriminate Fo]. destruct (follow_opt _ (n_else d0')) as [x2|]; [|discriminate Fo].
  destruct (follow_list _ (n_catch d0')) as [x3|]; [|discriminate Fo]. destruct (follow_opt _ (n_finally d0')) as [x4|]; [|discriminate Fo].
  unfold assemble in Fo. rewrite L1, Hk0, L2, Hp in Fo. injection Fo as <-. exists na, vs. split; [reflexivity|].
  destruct n as [|n]; [discriminate Ea|]. cbn [follow] in Ea. rewrite Ed' in Ea.
  destruct (follow_body _ (n_body d')) as [y1|]; [|discriminate Ea].
  destruct (follow_list _ (n_elseif d')) as [y2|]; [|discriminate Ea]. destruct (follow_opt _ (n_else d')) as [y3|]; [|discriminate Ea].
  destruct (follow_list _ (n_catch d')) as [y4|]; [|discriminate Ea]. destruct (follow_opt _ (n_finally d')) as [y5|]; [|discriminate Ea].
  unfold assemble in Ea. rewrite M1, Hk in Ea. destruct b, k; cbn [opens_kind] in Ho; try contradiction; injection Ea as <-; exact Ho.
Qed.

(** * The whole text *)

Lemma vim_opens neovim P F h a s s' v (x : text) ts b : command neovim P s a h -> In P stmt_parsers -> assoc_text P parser_table = Some F ->
  s <> [] -> head_not iswhite s -> v ++ x = s ++ s' -> Forall (fun r => r < 128) (h ++ v) -> reads_cond F v x b -> wf (new_reader (((h ++ v) ++ x) :: ts)) ->
  let w := N.of_nat (length (h ++ v)) in
  match parse_expr (new_reader (x :: ts)) with
  | Ok (v0, _) => forall t, vim_parse neovim (new_reader (((h ++ v) ++ x) :: ts)) = Ok t ->
      exists p n more, t = VToplevel p (n :: more) /\ block_tree b (map_pos (ind w) v0) n
  | PErr e => exists m q, e = Err_ m q /\ vim_parse neovim (new_reader (((h ++ v) ++ x) :: ts)) = PErr (Err_ m (ind w q))
  | _ => True
  end.
Proof.
  intros Cm HP' HF Hs1 Hs2 Evx Hal RF W w.
  set (c := new_reader (((h ++ v) ++ x) :: ts)) in *.
  set (d := put_first x w 1 w w (fun i => build_more ts i 1 (blen x + w) (blen x + w))).
  assert (Ec : c = put_first (h ++ v) 0 1 0 0 (fun i' => put_first x i' 1 w w (fun i => build_more ts i 1 (blen x + w) (blen x + w)))).
  { unfold c. cbn [new_reader]. rewrite first_join, (small_blen _ Hal). fold w. rewrite blen_join, (small_blen _ Hal). fold w. rewrite (N.add_comm w (blen x)). reflexivity. }
  assert (Sm : sim false (Eof (mkPos 0 0 0 0)) (Eof (mkPos 0 0 0 0)) (ind w) same (new_reader (x :: ts)) d).
  { cbn [new_reader]. unfold d. apply (ind_first1 w _ _ x _ _ 0 0 0). cbn [N.add]. apply ind_build; lia. }
  assert (S1 : spells (h ++ v) c d). { rewrite Ec. exact (first_spells (h ++ v) _ 0 1 0 0). }
  assert (S2 := first_spells x (fun i => build_more ts i 1 (blen x + w) (blen x + w)) w 1 w w). fold d in S2.
  cbv beta in S2. match type of S2 with spells _ _ ?y => remember y as k' eqn:Ek' end. clear Ek'.
  pose proof S1 as S1'. apply spells_split in S1. destruct S1 as [d0 [Sh Sv]].
  assert (Svx : spells (v ++ x) d0 k') by (apply (Cursor.spells_app v x d0 d k'); auto).
  rewrite Evx in Svx. apply spells_split in Svx. destruct Svx as [d1 [Sl _]].
  assert (W0 : wf d0) by (eapply spells_wf; eauto).
  destruct (head_step neovim P s a h [] c c d0 d1 [mkFrame FTop (getpos c) ea0 []] [] eq_refl eq_refl Cm HP' Sh Sl ltac:(intros Z; contradiction (Hs1 Z)) ltac:(constructor) W)
    as [e [y [line [cmdc [arg [ch' [Y1 [Y2 [_ [_ [Hch [He Eq]]]]]]]]]]]].
  assert (Esk : skip_white d0 = d0).
  { apply FindBack.skip_not. destruct s as [|s0 s]; [congruence|]. apply spells_head in Sl. destruct Sl as [? [? [-> _]]]. exact Hs2. }
  rewrite Esk in Eq. rewrite (dispatch_is P F) in Eq by auto.
  pose proof (RF (mkEc e line cmdc arg y) (mkSt d0 [mkFrame FTop (getpos c) ea0 []] ch') d k' W0 Sv S2) as R.
  pose proof (parse_expr_sim false _ _ _ _ _ _ Sm) as G. apply orel_closed in G; [|reflexivity].
  assert (Wd : wf d). { eapply wf_sfx; [apply spells_sfx with (s := h ++ v); exact S1'|exact W]. }
  pose proof (parse_expr_esafe (D := fun _ _ => True) d d Wd (sfx_refl d) (or_introl I)) as Ed.
  destruct (parse_expr (new_reader (x :: ts))) as [[v0 c1]|e0| |]; auto.
  - destruct (parse_expr d) as [[v' c1']| | |]; cbn [esafe] in Ed; try contradiction; try discriminate G.
    destruct G as [G _]. cbn [fst] in G. unfold vrel, same in G. rewrite map_pos_same in G.
    intros t Hu. unfold vim_parse in Hu. cbn [cmds_loop cur] in Hu. rewrite He in Hu.
    pose proof (s_one neovim _ _ (heap_start c)) as So. rewrite Eq in Hu, So.
    destruct (F _ _) as [st2| | |] eqn:E2; try discriminate Hu. cbn [bind] in Hu, So. destruct (R _ eq_refl) as [kd [p [ea [Hf Hc]]]]. cbn [ctx] in Hc.
    destruct (parse_trail st2) as [st3| | |] eqn:E3; try discriminate Hu. cbn [bind] in Hu.
    destruct (h_parse_one_cmd _ _) as [hs3| | |]; cbn [rel_out] in So; try contradiction.
    assert (Eb : exists body, ctx st3 = [mkFrame (frame_kind kd) p ea body; mkFrame FTop (getpos c) ea0 []]).
    { destruct (trail_ctx _ _ E3) as [Z|[f [r0 [n0 [Z1 Z2]]]]].
      - rewrite Z, Hc. exists []. reflexivity.
      - rewrite Hc in Z1. injection Z1 as <- <-. rewrite Z2. exists [n0]. reflexivity. }
    destruct Eb as [body Eb].
    assert (Hu' : bind (cmds_loop neovim (clen c) st3) parse_end = Ok t) by exact Hu.
    destruct (block_keeps _ _ _ _ _ _ _ _ _ _ _ _ So Hf Eb Hu') as [n [more [-> Hn]]]. exists (getpos c), n, more. split; [reflexivity|]. rewrite G. exact Hn.
  - destruct (parse_expr d) as [[v' c1']|e'| |]; cbn [esafe] in Ed; try contradiction; try discriminate G.
    destruct G as [mm [q1 [q2 [Pq [E1 ->]]]]]. unfold prel, same in Pq. subst q2. exists mm, q1. split; [exact E1|].
    unfold vim_parse. cbn [cmds_loop cur]. rewrite He, Eq, R. reflexivity.
Qed.
Lemma vim_cond neovim b (pre x : text) ts : block_head neovim x b pre -> x <> [] -> Forall (fun y => y < 128) pre ->
  wf (new_reader ((pre ++ x) :: ts)) ->
  let w := N.of_nat (length pre) in
  match parse_expr (new_reader (x :: ts)) with
  | Ok (v, _) => forall t, vim_parse neovim (new_reader ((pre ++ x) :: ts)) = Ok t ->
      exists p n more, t = VToplevel p (n :: more) /\ block_tree b (map_pos (ind w) v) n
  | PErr e => exists m q, e = Err_ m q /\ vim_parse neovim (new_reader ((pre ++ x) :: ts)) = PErr (Err_ m (ind w q))
  | _ => True
  end.
Proof.
  intros A Hx Hs W. destruct A as [a h Cm Hw|a h Cm Hw|l ls r a h sl w1 Cm Hlh Hw1 Hal].
  - pose proof (vim_opens neovim (T "parse_cmd_if") parse_cmd_if h a x [] [] x ts BIf Cm ltac:(apply mem_text_In; reflexivity) eq_refl Hx Hw) as G.
    rewrite !app_nil_r in G. cbn [app] in G. apply G; auto. apply if_cond.
  - pose proof (vim_opens neovim (T "parse_cmd_while") parse_cmd_while h a x [] [] x ts BWhile Cm ltac:(apply mem_text_In; reflexivity) eq_refl Hx Hw) as G.
    rewrite !app_nil_r in G. cbn [app] in G. apply G; auto. apply while_cond.
  - destruct (lhs_head _ _ _ _ _ _ _ Hlh) as [x1 [y1 [El [Hx1 Hx2]]]].
    apply (vim_opens neovim (T "parse_cmd_for") parse_cmd_for h a sl (w1 ++ T "in" ++ x) (sl ++ w1 ++ T "in") x ts); auto.
    + apply mem_text_In; reflexivity.
    + rewrite El. discriminate.
    + rewrite El. cbn [head_not]. unfold head_ok in Hx1. destruct (iswhite x1); [discriminate Hx1|reflexivity].
    + rewrite <- !app_assoc. reflexivity.
    + apply for_cond; auto.
Qed.

(** * The trees *)

Lemma block_export file b w v n s e : block_tree b (map_pos (ind w) v) n -> new_ast [] v = Ok e -> is_expr e = true -> export_stmt file n = Ok s ->
  is_block b (map_node (behind_command file w) e) s.
Proof.
  intros H E Q X.
  assert (M : new_ast file (map_pos (ind w) v) = Ok (map_node (behind_command file w) e)).
  { rewrite (new_ast_map [] file (ind w) (behind_command file w)); [rewrite E; reflexivity|]. intros []. reflexivity. }
  assert (Q' : is_expr (map_node (behind_command file w) e) = true) by (rewrite is_expr_map; exact Q).
  unfold export_stmt in X. destruct b as [| |l ls r], n; cbn [block_tree] in H; try contradiction.
  - subst. cbn [new_ast] in X. rewrite M in X. unfold to_expr in X.
    repeat match type of X with bind (bind ?o _) _ = _ => destruct o; try discriminate X; cbn [bind] in X | bind ?o _ = _ => destruct o; try discriminate X; cbn [bind] in X end.
    all: try rewrite Q' in X. all: try (injection X as <-; reflexivity).
  - subst. cbn [new_ast] in X. rewrite M in X. unfold to_expr in X.
    repeat match type of X with bind (bind ?o _) _ = _ => destruct o; try discriminate X; cbn [bind] in X | bind ?o _ = _ => destruct o; try discriminate X; cbn [bind] in X end.
    all: try rewrite Q' in X. all: try (injection X as <-; reflexivity).
  - destruct H as [-> [H1 [H2 H3]]]. destruct (shows_all file _ _ H2) as [ms [E2 M2]].
    assert (Ho : forall o x, shows_opt o x -> exists y, match o with None => Ok None | Some n => let* n' := new_ast file n in Ok (to_expr n') end = Ok y /\ option_map unplaced y = option_map unplaced x).
    { intros [vo|] [no|] Hs; try contradiction; [|exists None; auto]. destruct (shows_file file _ _ Hs) as [n' [A1 [A2 A3]]]. rewrite A1. cbn [bind]. unfold to_expr. rewrite A2.
      eexists. split; [reflexivity|]. cbn [option_map]. congruence. }
    destruct (Ho _ _ H1) as [y1 [F1 G1]]. destruct (Ho _ _ H3) as [y3 [F3 G3]]. clear Ho.
    cbn [new_ast] in X. match type of X with bind (bind ?o _) _ = _ => destruct o; try discriminate X; cbn [bind] in X end.
    rewrite F1 in X. cbn [bind] in X. rewrite E2 in X. cbn [bind] in X. rewrite F3 in X. cbn [bind] in X. rewrite M in X. cbn [bind] in X. unfold to_expr in X. rewrite Q' in X.
    match type of X with bind (bind ?o _) _ = _ => destruct o; try discriminate X; cbn [bind] in X end. injection X as <-. cbn [is_block]. auto.
Qed.
Lemma file_cond bs bs' b b' k (pre x : text) ts file opt : seen_lines bs (x :: ts) -> seen_lines bs' ((pre ++ x) :: ts) ->
  block_head (neovim_of opt) x k pre -> x <> [] -> Forall (fun y => y < 128) pre ->
  (forall p body, ParseFile (mkSource bs' b') file opt = Returned (NFile p body) ->
     exists n s more, ParseExpr (mkSource bs b) = Returned (Some n) /\ body = s :: more /\
       is_block k (map_node (behind_command file (N.of_nat (length pre))) n) s) /\
  (forall e, ParseExpr (mkSource bs b) = Failed e ->
     ParseFile (mkSource bs' b') file opt = Failed (error_behind file (N.of_nat (length pre)) e)).
Proof.
  intros L L' Ha Hx Hs. pose proof (open_source_wf (mkSource bs b)) as WB. pose proof (open_source_wf (mkSource bs' b')) as W.
  pose proof (parse_expr_esafe (D := fun _ _ => True) _ _ WB (sfx_refl _) (or_introl I)) as Es.
  unfold ParseFile, parse_to_ast, ParseExpr, parse_expr_to_ast. fold (neovim_of opt).
  rewrite (seen_open _ _ _ L) in *. rewrite (seen_open _ _ _ L') in *.
  pose proof (vim_cond (neovim_of opt) k pre x ts Ha Hx Hs W) as G. cbv zeta in G.
  destruct (parse_expr (new_reader (x :: ts))) as [[v c1]|e| |]; cbn [esafe] in Es; try contradiction.
  - destruct (dexpr_exports [] _ _ _ _ Es) as [n [Hn Hq]]. cbn [bind]. rewrite Hn. cbn [bind recovered]. unfold to_expr. rewrite Hq.
    split; [|discriminate]. intros p body E.
    destruct (vim_parse _ _) as [u| | |] eqn:Eu; try discriminate E. cbn [bind] in E. destruct (G u eq_refl) as [p1 [n1 [more [-> Hf]]]].
    cbn [new_ast] in E. fold (export_stmt file) in E. cbn [mapM] in E.
    destruct (export_stmt file n1) as [s1| | |] eqn:E1; try discriminate E. cbn [bind] in E. destruct (mapM (export_stmt file) more) as [ss| | |]; try discriminate E.
    injection E as <- <-. exists n, s1, ss. split; [reflexivity|]. split; [reflexivity|]. exact (block_export _ _ _ _ _ _ _ Hf Hn Hq E1).
  - destruct G as [m [q [-> G]]]. rewrite G. cbn [bind recovered]. split; [discriminate|]. intros e E. injection E as <-. reflexivity.
Qed.
