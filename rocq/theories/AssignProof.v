(** The value of an assignment and the same expression by itself: the proofs. *)
From Coq Require Import Lia ZifyBool ZifyNat ZifyN.
From Verif Require Import Base Utf8 CharClass Reader Vnode Token Ast Tokenizer ExprParser CmdTable CmdParser Export Api
  Cursor Grammar Sim SimCmd SimLoop Graft Places LinesProof ApiExpr ApiFile ScriptExport ExportSafe ExprSafe Script CmdBase CmdOpen CmdLoop Nodes Join JoinProof Sequel SequelProof JsonProof NodeText
  TokSafe IndentProof Head Written WrittenProof WrittenScript TargetProof ArgsProof FindBack LineProof AloneProof.

(** * The specification *)

(** [assignment nv op l ls r pre]: the text [pre] is a :let or :const up to the operator
    [op] of the assignment; its left side is the target [l], or the list [ls] with the rest [r]. *)
Inductive assignment (nv : bool) : text -> option node -> list node -> option node -> text -> Prop :=
| as_let op l ls r a h sl w1 : command nv (T "parse_cmd_let") sl a h -> In op assign_ops ->
    written_lhs variable w1 op l ls r sl -> gap w1 -> assignment nv op l ls r (h ++ sl ++ w1 ++ op)
| as_const l ls r a h sl w1 : command nv (T "parse_cmd_const") sl a h ->
    written_lhs const_variable w1 (T "=") l ls r sl -> gap w1 -> assignment nv (T "=") l ls r (h ++ sl ++ w1 ++ T "=").

(** * The operator *)

Lemma let_op_next op c d x k : In op assign_ops -> spells op c d -> spells x d k -> (op = T "=" -> exists r s, x = r :: s /\ r <> C "<") ->
  let s1 := peekn 1 c in
  let s2 := (let s := peekn 2 c in if text_eqb s (T "..") || text_eqb s (T "=<") then peekn 3 c else s) in
  ends_excmds1 (peek1 c) = false /\ text_eqb s2 (T "=<<") = false /\
  ((op <> T "=" /\ s2 = op /\ is_assign_op s2 = true) \/ (op = T "=" /\ s1 = op /\ is_assign_op s2 = false)).
Proof.
  intros Hop Sp Sx Hx s1 s2. assert (Hh : exists r y, op = r :: y /\ ends_excmds1 (Some r) = false).
  { cbn [In assign_ops] in Hop. repeat (destruct Hop as [<-|Hop]; [do 2 eexists; split; reflexivity|]). contradiction. }
  split. { destruct Hh as [r [y [-> Hr]]]. apply spells_head in Sp. destruct Sp as [? [? [-> _]]]. exact Hr. }
  destruct (list_eq_dec N.eq_dec op (T "=")) as [->|Hne].
  - assert (H1 : s1 = T "=") by exact (peekn_exact 1 (T "=") c d Sp eq_refl).
    destruct (Hx eq_refl) as [r [s [-> Hr]]]. apply spells_head in Sx. destruct Sx as [q [t [-> Sx]]].
    assert (H3 : peekn 2 c = [C "="; r]).
    { apply (peekn_exact 2 [C "="; r] c t); auto. apply (Cursor.spells_app (T "=") [r] c (Cons (R r) q t) t); auto. cbn. auto. }
    assert (H4 : s2 = [C "="; r]).
    { unfold s2. rewrite H3. destruct (text_eqb [C "="; r] (T "..") || text_eqb [C "="; r] (T "=<")) eqn:E; auto. exfalso. cbn in E, Hr. lia. }
    rewrite H4. split; [cbn; destruct (r =? 60); reflexivity|right; split; auto].
  - cbn [In assign_ops] in Hop. repeat (destruct Hop as [<-|Hop]; [
      first [ contradiction Hne; reflexivity | assert (H2 : s2 = T "..=") by (unfold s2; assert (E2 : peekn 2 c = T "..") by
                (apply spells_head in Sp; destruct Sp as [? [? [-> Sp]]]; apply spells_head in Sp; destruct Sp as [? [? [-> Sp]]]; reflexivity);
                rewrite E2; exact (peekn_exact 3 (T "..=") c d Sp eq_refl))
            | match goal with |- text_eqb s2 _ = false /\ ((?o <> _ /\ _) \/ _) => assert (H2 : s2 = o) by (unfold s2; rewrite (peekn_exact 2 o c d Sp eq_refl); reflexivity) end ];
      rewrite ?H2; try (split; [reflexivity|]; left; split; [discriminate|split; reflexivity]) |]).
    contradiction.
Qed.

(** * The commands *)

(** The statement assigns [v] with [op]. *)
Definition assigns (op : text) (l : option node) (ls : list node) (r : option node) (v n : vnode) : Prop :=
  exists l' ls' r', shows_opt l' l /\ Forall2 shows ls' ls /\ shows_opt r' r /\
    exists p e, n = VLet p e op l' ls' r' (Some v) \/ n = VConst p e op l' ls' r' (Some v).
Definition reads_behind (F : ectx -> pstate -> outcome pstate) (u x : text) (hf : vnode -> vnode -> Prop) : Prop :=
  forall ec st f fr d k, ctx st = f :: fr -> wf (cur st) -> spells u (cur st) d -> spells x d k ->
  match parse_expr d with
  | Ok (v, _) => forall st', F ec st = Ok st' -> exists n, hf v n /\ ctx st' = add_body n f :: fr
  | PErr e => F ec st = PErr e
  | Panic k => F ec st = Panic k
  | OutOfFuel => True
  end.
Lemma let_behind op l ls r sl w1 x : In op assign_ops -> written_lhs variable w1 op l ls r sl -> gap w1 ->
  (op = T "=" -> exists r s, x = r :: s /\ r <> C "<") ->
  reads_behind parse_cmd_let (sl ++ w1 ++ op) x (assigns op l ls r).
Proof.
  intros Hop Hlh Hw1 Hx ec st f fr d3 k X Wd Sp Sx. apply spells_split in Sp. destruct Sp as [d1 [S1 Sp]]. apply spells_split in Sp. destruct Sp as [d2 [S2 S3]].
  destruct (lhs_head _ _ _ _ _ _ _ Hlh) as [x1 [y1 [El [Hx1 Hx2]]]]. assert (Hgl : good_head sl) by (exists x1, y1; auto).
  destruct (read_lhs variable parse_lvalue w1 op l ls r sl (cur st) d1 d3) as [l' [ls' [r' [El' [Sl1 [Sl2 Sl3]]]]]]; auto.
  { intros nn ss cc kk Z1 Z2 Z3 Z4 Z5. exact (read_lvalue nn ss [] cc kk Z1 Z2 eq_refl Z3 Z4 Z5). }
  { right. right. auto. }
  { apply (Cursor.spells_app w1 op d1 d2 d3); auto. }
  destruct (let_op_next op d2 d3 x k Hop S3 Sx Hx) as [O1 [O2 O3]].
  assert (Hsk : skip_white d1 = d2).
  { apply (skip_gap w1); auto. cbn [In assign_ops] in Hop. clear - Hop S3.
    repeat (destruct Hop as [<-|Hop]; [apply spells_head in S3; destruct S3 as [? [? [-> _]]]; reflexivity|]). contradiction. }
  assert (Hrun : parse_cmd_let ec st = let* '(v, c3) := parse_expr d3 in add_node (VLet (cmdpos ec) (ec_ea ec) op l' ls' r' (Some v)) (with_cur c3 st)).
  { unfold parse_cmd_let. rewrite (head_still sl (cur st) d1 Hgl S1).
    replace (ends_excmds (peek (cur st))) with false.
    2: { subst sl. apply spells_head in S1. destruct S1 as [? [? [-> _]]]. cbn [peek ch_of_cell]. rewrite head_not_end by auto. clear - Hx2. cbn in *. lia. }
    rewrite El'. cbn [bind]. rewrite Hsk. set (s2 := let s0 := peekn 2 d2 in if text_eqb s0 (T "..") || text_eqb s0 (T "=<") then peekn 3 d2 else s0) in *.
    rewrite O1, O2. destruct O3 as [[Q1 [Q2 Q3]]|[Q1 [Q2 Q3]]]; rewrite Q3; cbn [negb andb orb].
    - rewrite Q2, (getn_exact (length op) op d2 d3 S3 eq_refl). cbn [snd]. reflexivity.
    - rewrite Q2, Q1. change (text_eqb (T "=") (T "=")) with true. rewrite Q1 in S3. cbn [negb andb orb]. rewrite (getn_exact 1 (T "=") d2 d3 S3 eq_refl). cbn [snd]. reflexivity. }
  rewrite Hrun. destruct (parse_expr d3) as [[v c3]| | |]; cbn [bind]; auto.
  unfold add_node, with_cur, with_ctx. cbn [ctx cur cache]. rewrite X. intros st' E. injection E as <-. eexists. split; [|reflexivity].
  exists l', ls', r'. repeat (split; auto). eauto.
Qed.
Lemma const_behind l ls r sl w1 x : written_lhs const_variable w1 (T "=") l ls r sl -> gap w1 ->
  reads_behind parse_cmd_const (sl ++ w1 ++ T "=") x (assigns (T "=") l ls r).
Proof.
  intros Hlh Hw1 ec st f fr d3 k X Wd Sp Sx. apply spells_split in Sp. destruct Sp as [d1 [S1 Sp]]. apply spells_split in Sp. destruct Sp as [d2 [S2 S3]].
  destruct (lhs_head _ _ _ _ _ _ _ Hlh) as [x1 [y1 [El [Hx1 Hx2]]]]. assert (Hgl : good_head sl) by (exists x1, y1; auto).
  destruct (read_lhs const_variable parse_constlvalue w1 (T "=") l ls r sl (cur st) d1 d3) as [l' [ls' [r' [El' [Sl1 [Sl2 Sl3]]]]]]; auto.
  { intros nn ss cc kk Z1 Z2 Z3 Z4 Z5. exact (read_constlvalue nn ss [] cc kk Z1 Z2 eq_refl Z3 Z4 Z5). }
  { right. right. apply mem_text_In. reflexivity. }
  { apply (Cursor.spells_app w1 (T "=") d1 d2 d3); auto. }
  assert (Hsk : skip_white d1 = d2).
  { apply (skip_gap w1); auto. apply spells_head in S3; destruct S3 as [? [? [-> _]]]; reflexivity. }
  assert (Hrun : parse_cmd_const ec st = let* '(v, c3) := parse_expr d3 in add_node (VConst (cmdpos ec) (ec_ea ec) (T "=") l' ls' r' (Some v)) (with_cur c3 st)).
  { unfold parse_cmd_const. rewrite (head_still sl (cur st) d1 Hgl S1).
    replace (ends_excmds (peek (cur st))) with false.
    2: { subst sl. apply spells_head in S1. destruct S1 as [? [? [-> _]]]. cbn [peek ch_of_cell]. rewrite head_not_end by auto. clear - Hx2. cbn in *. lia. }
    rewrite El'. cbn [bind]. rewrite Hsk. rewrite (getn_exact 1 (T "=") d2 d3 S3 eq_refl). apply spells_head in S3; destruct S3 as [? [? [-> S3]]]. cbn [peek1 snd].
    replace (ends_excmds1 (Some (C "=")) || negb (o_is (Some (C "=")) (C "="))) with false by reflexivity. reflexivity. }
  rewrite Hrun. destruct (parse_expr d3) as [[v c3]| | |]; cbn [bind]; auto.
  unfold add_node, with_cur, with_ctx. cbn [ctx cur cache]. rewrite X. intros st' E. injection E as <-. eexists. split; [|reflexivity].
  exists l', ls', r'. repeat (split; auto). eauto.
Qed.

(** * The whole text *)

Lemma small_blen s : Forall (fun r => r < 128) s -> blen s = N.of_nat (length s).
Proof.
  induction 1 as [|r s Hr _ IH]; [reflexivity|]. cbn [blen length]. rewrite IH. assert (rune_len r = 1); [|lia].
  unfold rune_len. replace (r <? 128) with true; [reflexivity|]. symmetry. lia.
Qed.
Lemma vim_behind neovim P F h a sl u (x : text) ts (hf : vnode -> vnode -> Prop) : command neovim P sl a h -> In P stmt_parsers -> assoc_text P parser_table = Some F ->
  good_head sl -> Forall (fun r => r < 128) (h ++ sl ++ u) -> reads_behind F (sl ++ u) x hf -> wf (new_reader (((h ++ sl ++ u) ++ x) :: ts)) ->
  let w := N.of_nat (length (h ++ sl ++ u)) in
  match parse_expr (new_reader (x :: ts)) with
  | Ok (v, _) => forall t, vim_parse neovim (new_reader (((h ++ sl ++ u) ++ x) :: ts)) = Ok t ->
      exists p n more, t = VToplevel p (n :: more) /\ hf (map_pos (ind w) v) n
  | PErr e => exists m q, e = Err_ m q /\ vim_parse neovim (new_reader (((h ++ sl ++ u) ++ x) :: ts)) = PErr (Err_ m (ind w q))
  | _ => True
  end.
Proof.
  intros Cm HP' HF Hgl Hal RF W w.
  set (c := new_reader (((h ++ sl ++ u) ++ x) :: ts)) in *.
  set (d := put_first x w 1 w w (fun i => build_more ts i 1 (blen x + w) (blen x + w))).
  assert (Ec : c = put_first (h ++ sl ++ u) 0 1 0 0 (fun i' => put_first x i' 1 w w (fun i => build_more ts i 1 (blen x + w) (blen x + w)))).
  { unfold c. cbn [new_reader]. rewrite first_join, (small_blen _ Hal). fold w. rewrite blen_join, (small_blen _ Hal). fold w. rewrite (N.add_comm w (blen x)). reflexivity. }
  assert (Sm : sim false (Eof (mkPos 0 0 0 0)) (Eof (mkPos 0 0 0 0)) (ind w) same (new_reader (x :: ts)) d).
  { cbn [new_reader]. unfold d. apply (ind_first1 w _ _ x _ _ 0 0 0). cbn [N.add]. apply ind_build; lia. }
  assert (S1 : spells (h ++ sl ++ u) c d). { rewrite Ec. exact (first_spells (h ++ sl ++ u) _ 0 1 0 0). }
  assert (S2 := first_spells x (fun i => build_more ts i 1 (blen x + w) (blen x + w)) w 1 w w). fold d in S2.
  cbv beta in S2. match type of S2 with spells _ _ ?y => remember y as k' eqn:Ek' end. clear Ek'.
  pose proof S1 as S1'. apply spells_split in S1. destruct S1 as [d0 [Sh S1]]. pose proof S1 as S1u. apply spells_split in S1. destruct S1 as [d1 [Sl _]].
  assert (W0 : wf d0) by (eapply spells_wf; eauto).
  destruct (head_step neovim P sl a h [] c c d0 d1 [mkFrame FTop (getpos c) ea0 []] [] eq_refl eq_refl Cm HP' Sh Sl ltac:(intros ->; destruct Hgl as [? [? [? _]]]; discriminate) ltac:(constructor) W)
    as [e [y [line [cmdc [arg [ch' [Y1 [Y2 [_ [_ [Hch [He Eq]]]]]]]]]]]].
  rewrite (head_still sl d0 d1 Hgl Sl) in Eq. rewrite (dispatch_is P F) in Eq by auto.
  pose proof (RF (mkEc e line cmdc arg y) (mkSt d0 [mkFrame FTop (getpos c) ea0 []] ch') _ _ d k' eq_refl W0 S1u S2) as R.
  pose proof (parse_expr_sim false _ _ _ _ _ _ Sm) as G. apply orel_closed in G; [|reflexivity].
  assert (Wd : wf d). { eapply wf_sfx; [apply spells_sfx with (s := h ++ sl ++ u); exact S1'|exact W]. }
  pose proof (parse_expr_esafe (D := fun _ _ => True) d d Wd (sfx_refl d) (or_introl I)) as Ed.
  pose proof (one_safe neovim c W _ (inv_start neovim c) He) as Os.
  destruct (parse_expr (new_reader (x :: ts))) as [[v c1]|e0| |]; auto.
  - destruct (parse_expr d) as [[v' c1']| | |]; cbn [esafe] in Ed; try contradiction; try discriminate G.
    destruct G as [G _]. cbn [fst] in G. unfold vrel, same in G. rewrite map_pos_same in G.
    intros t Hu. unfold vim_parse in Hu. cbn [cmds_loop cur] in Hu. rewrite He in Hu. rewrite Eq in Hu, Os.
    destruct (F _ _) as [st2| | |] eqn:E2; try discriminate Hu. cbn [bind] in Hu, Os. destruct (R _ eq_refl) as [n [Hf Hc]].
    destruct (parse_trail st2) as [st3| | |] eqn:E3; try discriminate Hu. cbn [bind csafe] in Hu, Os.
    destruct Os as [Oi Ol]. pose proof (inv_sfx _ _ _ Oi) as Osx. destruct Oi as [Ock _].
    assert (Eb : exists more, ctx st3 = [mkFrame FTop (getpos c) ea0 (n :: more)]).
    { destruct (trail_ctx _ _ E3) as [Z|[f [r0 [n0 [Z1 Z2]]]]].
      - rewrite Z, Hc. exists []. reflexivity.
      - rewrite Hc in Z1. injection Z1 as <- <-. rewrite Z2. exists [n0]. reflexivity. }
    destruct Eb as [more Eb]. destruct st3 as [c3 fr3 ch3]. cbn [ctx cur cache] in *. subst fr3.
    assert (Hu' : bind (cmds_loop neovim (clen c) (mkSt c3 [mkFrame FTop (getpos c) ea0 (n :: more)] ch3)) parse_end = Ok t) by exact Hu.
    apply rest_keeps in Hu'; auto; [|eapply wf_sfx; eauto]. destruct Hu' as [mm ->]. exists (getpos c), n, (more ++ mm). split; [reflexivity|]. rewrite G. exact Hf.
  - destruct (parse_expr d) as [[v' c1']|e'| |]; cbn [esafe] in Ed; try contradiction; try discriminate G.
    destruct G as [mm [q1 [q2 [Pq [E1 ->]]]]]. unfold prel, same in Pq. subst q2. exists mm, q1. split; [exact E1|].
    unfold vim_parse. cbn [cmds_loop cur]. rewrite He, Eq, R. reflexivity.
Qed.
Lemma vim_assigned neovim op l ls r (pre x : text) ts : assignment neovim op l ls r pre -> Forall (fun y => y < 128) pre ->
  (op = T "=" -> exists y s, x = y :: s /\ y <> C "<") -> wf (new_reader ((pre ++ x) :: ts)) ->
  let w := N.of_nat (length pre) in
  match parse_expr (new_reader (x :: ts)) with
  | Ok (v, _) => forall t, vim_parse neovim (new_reader ((pre ++ x) :: ts)) = Ok t ->
      exists p n more, t = VToplevel p (n :: more) /\ assigns op l ls r (map_pos (ind w) v) n
  | PErr e => exists m q, e = Err_ m q /\ vim_parse neovim (new_reader ((pre ++ x) :: ts)) = PErr (Err_ m (ind w q))
  | _ => True
  end.
Proof.
  intros A Hs Hx W. destruct A as [op l ls r a h sl w1 Cm Hop Hlh Hw1|l ls r a h sl w1 Cm Hlh Hw1];
    destruct (lhs_head _ _ _ _ _ _ _ Hlh) as [x1 [y1 [El [Hx1 Hx2]]]]; assert (Hgl : good_head sl) by (exists x1, y1; auto).
  - apply (vim_behind neovim (T "parse_cmd_let") parse_cmd_let h a sl (w1 ++ op) x ts); auto. apply mem_text_In; reflexivity. apply let_behind; auto.
  - apply (vim_behind neovim (T "parse_cmd_const") parse_cmd_const h a sl (w1 ++ T "=") x ts); auto. apply mem_text_In; reflexivity. apply const_behind; auto.
Qed.

(** * The trees *)

Lemma shows_file file v n : shows v n -> exists n', new_ast file v = Ok n' /\ is_expr n' = true /\ unplaced n' = unplaced n.
Proof.
  intros [n' [E [Q U]]].
  assert (M : new_ast file (map_pos same v) = Ok (map_node (fun p => mkAPos (ap_offset p) (ap_line p) (ap_column p) file) n')).
  { rewrite (new_ast_map [] file same (fun p => mkAPos (ap_offset p) (ap_line p) (ap_column p) file)); [rewrite E; reflexivity|]. intros []. reflexivity. }
  rewrite map_pos_same in M. eexists. split; [exact M|]. split; [rewrite is_expr_map; exact Q|]. rewrite <- U. unfold unplaced. rewrite map_node_comp. reflexivity.
Qed.

Lemma shows_all file vs ns : Forall2 shows vs ns -> exists ms, mapM (fun n => let* n' := new_ast file n in expr_elem n') vs = Ok ms /\ map unplaced ms = map unplaced ns.
Proof.
  induction 1 as [|v n vs ns H _ [ms [E M]]]; [exists []; auto|]. destruct (shows_file file v n H) as [n' [E1 [Q U]]].
  exists (n' :: ms). cbn [mapM map]. rewrite E1. cbn [bind]. unfold expr_elem at 1. rewrite Q. cbn [bind]. rewrite E. cbn [bind]. split; [reflexivity|]. congruence.
Qed.
Lemma assigns_export file op l ls r w v n b e : assigns op l ls r (map_pos (ind w) v) n -> new_ast [] v = Ok e -> is_expr e = true -> export_stmt file n = Ok b ->
  exists p a l' ls' r', b = NLet p a op l' ls' r' (Some (map_node (behind_command file w) e)) /\
    option_map unplaced l' = option_map unplaced l /\ map unplaced ls' = map unplaced ls /\ option_map unplaced r' = option_map unplaced r.
Proof.
  intros [l0 [ls0 [r0 [H1 [H2 [H3 [p [ea Hn]]]]]]]] E Q X.
  assert (M : new_ast file (map_pos (ind w) v) = Ok (map_node (behind_command file w) e)).
  { rewrite (new_ast_map [] file (ind w) (behind_command file w)); [rewrite E; reflexivity|]. intros []. reflexivity. }
  assert (Q' : is_expr (map_node (behind_command file w) e) = true) by (rewrite is_expr_map; exact Q).
  destruct (shows_all file _ _ H2) as [ms [E2 M2]].
  assert (Ho : forall o x, shows_opt o x -> exists y, match o with None => Ok None | Some n => let* n' := new_ast file n in Ok (to_expr n') end = Ok y /\ option_map unplaced y = option_map unplaced x).
  { intros [vo|] [no|] Hs; try contradiction; [|exists None; auto]. destruct (shows_file file _ _ Hs) as [n' [A1 [A2 A3]]]. rewrite A1. cbn [bind]. unfold to_expr. rewrite A2.
    eexists. split; [reflexivity|]. cbn [option_map]. congruence. }
  destruct (Ho _ _ H1) as [y1 [F1 G1]]. destruct (Ho _ _ H3) as [y3 [F3 G3]]. clear Ho.
  unfold export_stmt in X. destruct Hn as [-> | ->]; cbn [new_ast] in X; rewrite M in X; cbn [bind] in X; unfold to_expr at 3 in X; rewrite Q' in X;
    rewrite F1, F3, E2 in X; cbn [bind] in X; injection X as <-; do 5 eexists; (split; [reflexivity|auto]).
Qed.
Lemma file_assigned bs bs' b b' op l ls r (pre x : text) ts file opt : seen_lines bs (x :: ts) -> seen_lines bs' ((pre ++ x) :: ts) ->
  assignment (neovim_of opt) op l ls r pre -> Forall (fun y => y < 128) pre -> (op = T "=" -> exists y s, x = y :: s /\ y <> C "<") ->
  (forall p body, ParseFile (mkSource bs' b') file opt = Returned (NFile p body) ->
     exists n q a l' ls' r' more, ParseExpr (mkSource bs b) = Returned (Some n) /\
       body = NLet q a op l' ls' r' (Some (map_node (behind_command file (N.of_nat (length pre))) n)) :: more /\
       option_map unplaced l' = option_map unplaced l /\ map unplaced ls' = map unplaced ls /\ option_map unplaced r' = option_map unplaced r) /\
  (forall e, ParseExpr (mkSource bs b) = Failed e ->
     ParseFile (mkSource bs' b') file opt = Failed (error_behind file (N.of_nat (length pre)) e)).
Proof.
  intros L L' Ha Hs Hx. pose proof (open_source_wf (mkSource bs b)) as WB. pose proof (open_source_wf (mkSource bs' b')) as W.
  pose proof (parse_expr_esafe (D := fun _ _ => True) _ _ WB (sfx_refl _) (or_introl I)) as Es.
  unfold ParseFile, parse_to_ast, ParseExpr, parse_expr_to_ast. fold (neovim_of opt).
  rewrite (seen_open _ _ _ L) in *. rewrite (seen_open _ _ _ L') in *.
  pose proof (vim_assigned (neovim_of opt) op l ls r pre x ts Ha Hs Hx W) as G. cbv zeta in G.
  pose proof (vim_parse_safe (neovim_of opt) _ W) as VB.
  destruct (parse_expr (new_reader (x :: ts))) as [[v c1]|e| |]; cbn [esafe] in Es; try contradiction.
  - destruct (dexpr_exports [] _ _ _ _ Es) as [n [Hn Hq]]. cbn [bind]. rewrite Hn. cbn [bind recovered]. unfold to_expr. rewrite Hq.
    split; [|discriminate]. intros p body E.
    destruct (vim_parse _ _) as [u| | |] eqn:Eu; try discriminate E. cbn [bind] in E. destruct (G u eq_refl) as [p1 [n1 [more [-> Hf]]]].
    cbn [new_ast] in E. fold (export_stmt file) in E. cbn [mapM] in E.
    destruct (export_stmt file n1) as [s1| | |] eqn:E1; try discriminate E. cbn [bind] in E. destruct (mapM (export_stmt file) more) as [ss| | |]; try discriminate E.
    injection E as <- <-. destruct (assigns_export _ _ _ _ _ _ _ _ _ _ Hf Hn Hq E1) as [q [a [l' [ls' [r' [-> [U1 [U2 U3]]]]]]]].
    exists n, q, a, l', ls', r', ss. auto 10.
  - destruct G as [m [q [-> G]]]. rewrite G. cbn [bind recovered]. split; [discriminate|]. intros e E. injection E as <-. reflexivity.
Qed.
