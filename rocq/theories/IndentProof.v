(** Blanks and colons before the first command of a text: the proofs. *)
From Coq Require Import Lia ZifyBool ZifyNat ZifyN.
From Verif Require Import Base Utf8 CharClass Reader Vnode Token Ast Tokenizer ExprParser CmdTable CmdParser Export Api
  Cursor Sim SimCmd SimLoop Graft Places LinesProof ApiExpr ApiFile ScriptExport Script CmdBase CmdOpen CmdLoop Nodes Join JoinProof Sequel SequelProof JsonProof NodeText.

Definition ind (w : N) (p : pos) : pos :=
  mkPos (p_i p + w) (p_lnum p) (if p_lnum p =? 1 then p_col p + w else p_col p)
    (if (p_off p =? 0) && negb (p_lnum p =? 1) then 0 else p_off p + w).
Section Ind.
Context (w : N) (F F' : cursor).
Local Notation sim := (Sim.sim false F F' (ind w) same).
Lemma ind_line1 i col off : prel (ind w) same (mkPos i 1 col off) (mkPos (i + w) 1 (col + w) (off + w)).
Proof. unfold prel, ind, same. cbn [p_i p_lnum p_col p_off]. replace (1 =? 1) with true by reflexivity. rewrite andb_false_r. reflexivity. Qed.
Lemma ind_more i ln col off : ln <> 1 -> 0 < off -> prel (ind w) same (mkPos i ln col off) (mkPos (i + w) ln col (off + w)).
Proof.
  intros H H1. unfold prel, ind, same. cbn [p_i p_lnum p_col p_off]. replace (ln =? 1) with false by lia.
  replace ((off =? 0) && negb false) with false by lia. reflexivity.
Qed.
Lemma ind_first1 t k k' : forall i col off, sim (k (i + N.of_nat (length t))) (k' (i + N.of_nat (length t) + w)) ->
  sim (put_first t i 1 col off k) (put_first t (i + w) 1 (col + w) (off + w) k').
Proof.
  induction t as [|r t IH]; cbn [put_first length]; intros i col off H.
  - rewrite N.add_0_r in H. exact H.
  - apply sim_cons. { replace (col + w + 1) with (col + 1 + w) by lia. apply ind_line1. }
    replace (i + w + 1) with (i + 1 + w) by lia. replace (off + w + rune_len r) with (off + rune_len r + w) by lia. replace (col + w + rune_len r) with (col + rune_len r + w) by lia.
    apply IH. replace (i + 1 + N.of_nat (length t)) with (i + N.of_nat (S (length t))) by lia. exact H.
Qed.
Lemma ind_first t k k' : forall i ln col off, ln <> 1 -> 0 < off -> sim (k (i + N.of_nat (length t))) (k' (i + N.of_nat (length t) + w)) ->
  sim (put_first t i ln col off k) (put_first t (i + w) ln col (off + w) k').
Proof.
  induction t as [|r t IH]; cbn [put_first length]; intros i ln col off Hl Ho H.
  - rewrite N.add_0_r in H. exact H.
  - apply sim_cons. { apply ind_more; auto. }
    replace (i + w + 1) with (i + 1 + w) by lia. replace (off + w + rune_len r) with (off + rune_len r + w) by lia.
    apply IH; [lia|lia|]. replace (i + 1 + N.of_nat (length t)) with (i + N.of_nat (S (length t))) by lia. exact H.
Qed.
Lemma ind_cont t k k' : forall i ln col, ln <> 1 -> sim (k (i + N.of_nat (length t))) (k' (i + N.of_nat (length t) + w)) ->
  sim (put_cont t i ln col k) (put_cont t (i + w) ln col k').
Proof.
  induction t as [|r t IH]; cbn [put_cont length]; intros i ln col Ho H.
  - rewrite N.add_0_r in H. exact H.
  - apply sim_cons.
    { unfold prel, ind, same. cbn [p_i p_lnum p_col p_off]. replace (ln =? 1) with false by lia. reflexivity. }
    replace (i + w + 1) with (i + 1 + w) by lia.
    apply IH; [lia|]. replace (i + 1 + N.of_nat (length t)) with (i + N.of_nat (S (length t))) by lia. exact H.
Qed.
Lemma ind_eol i ln col col' off : 1 <= ln -> (ln = 1 /\ col' = col + w \/ ln <> 1 /\ col' = col /\ 0 < off) ->
  prel (ind w) same (mkPos i ln (col + 1) off) (mkPos (i + w) ln (col' + 1) (off + w)).
Proof.
  intros _ [[-> ->]|[H [-> H1]]]; [|apply ind_more; auto]. replace (col + w + 1) with (col + 1 + w) by lia. apply ind_line1.
Qed.
Lemma ind_build : forall ts i ln col col' off, 1 <= ln -> (ln = 1 /\ col' = col + w \/ ln <> 1 /\ col' = col /\ 0 < off) ->
  sim (build_more ts i ln col off) (build_more ts (i + w) ln col' (off + w)).
Proof.
  induction ts as [|t ts IH]; intros i ln col col' off Hl Ho.
  - cbn [build_more]. apply sim_cons; [apply ind_eol; auto|]. apply sim_eof; [reflexivity|].
    replace (i + w + 1) with (i + 1 + w) by lia. replace (off + w + 1) with (off + 1 + w) by lia. apply ind_more; lia.
  - cbn [build_more]. destruct (re_continuation t).
    + destruct (skip_backslash t 0) as [u c]. apply ind_cont; [lia|].
      replace (off + w + blen t + 1) with (off + blen t + 1 + w) by lia. apply IH; lia.
    + apply sim_cons; [apply ind_eol; auto|].
      replace (i + w + 1) with (i + 1 + w) by lia. replace (off + w + 1) with (off + 1 + w) by lia. apply ind_first; [lia|lia|].
      replace (off + 1 + w + blen t) with (off + 1 + blen t + w) by lia. apply IH; lia.
Qed.
Lemma ind_idx p p' q q' : prel (ind w) same p p' -> prel (ind w) same q q' -> (p_i p' =? p_i q' + 1) = (p_i p =? p_i q + 1).
Proof. unfold prel, same. intros <- <-. cbn [ind p_i]. lia. Qed.
End Ind.

(** The text with blanks and colons in front. *)
Definition lead (r : N) : bool := iswhite r || (r =? C ":").
Lemma lead_len r : lead r = true -> rune_len r = 1.
Proof. unfold lead, iswhite, rune_len. destruct (r <? 128) eqn:E; auto. intros H. change (C " ") with 32 in H. change (C ":") with 58 in H. lia. Qed.
Lemma lead_blen ws : forallb lead ws = true -> blen ws = N.of_nat (length ws).
Proof.
  induction ws as [|r ws IH]; [reflexivity|]. cbn [forallb]. intros H. apply andb_true_iff in H. destruct H as [H1 H2].
  cbn [blen length]. rewrite (IH H2), (lead_len _ H1). lia.
Qed.
Lemma blen_join s t : blen (s ++ t) = blen s + blen t.
Proof. induction s as [|r s IH]; cbn [app blen]; [reflexivity|]. rewrite IH. lia. Qed.
Lemma first_join s t k : forall i ln col off, put_first (s ++ t) i ln col off k =
  put_first s i ln col off (fun i' => put_first t i' ln (col + blen s) (off + blen s) k).
Proof.
  induction s as [|r s IH]; intros i ln col off; cbn [app put_first blen]; [rewrite !N.add_0_r; reflexivity|].
  f_equal. rewrite IH, !N.add_assoc. reflexivity.
Qed.
Lemma skip_lead ws k : forall i ln col off, forallb lead ws = true ->
  skip_white_and_colon (put_first ws i ln col off k) = skip_white_and_colon (k (i + N.of_nat (length ws))).
Proof.
  induction ws as [|r ws IH]; intros i ln col off H; cbn [put_first length]; [rewrite N.add_0_r; reflexivity|].
  cbn [forallb] in H. apply andb_true_iff in H. destruct H as [H1 H2].
  replace (i + N.of_nat (S (length ws))) with (i + 1 + N.of_nat (length ws)) by lia. rewrite <- (IH (i + 1) ln (col + rune_len r) (off + rune_len r) H2).
  unfold skip_white_and_colon, skip_while. cbn [read_while]. unfold lead in H1. rewrite H1.
  destruct (read_while _ (put_first ws _ _ _ _ k)). reflexivity.
Qed.
Lemma one_cmd_skip neovim c d fs ch : text_eqb (peekn 2 c) (T "#!") = false -> text_eqb (peekn 2 d) (T "#!") = false ->
  skip_white_and_colon c = skip_white_and_colon d ->
  parse_one_cmd neovim (mkSt c fs ch) = parse_one_cmd neovim (mkSt d fs ch).
Proof. intros H1 H2 E. unfold parse_one_cmd. cbn [cur]. rewrite H1, H2, E. reflexivity. Qed.
Lemma first_sfx t k : forall i ln col off, sfx (k (i + N.of_nat (length t))) (put_first t i ln col off k).
Proof.
  induction t as [|r t IH]; intros i ln col off; cbn [put_first length]; [rewrite N.add_0_r; constructor|].
  apply sfx_cons. replace (i + N.of_nat (S (length t))) with (i + 1 + N.of_nat (length t)) by lia. apply IH.
Qed.
Lemma build_open ts i ln col off : is_eof (build_more ts i ln col off) = false.
Proof.
  revert i ln col off. induction ts as [|t ts IH]; intros i ln col off; cbn [build_more]; [reflexivity|].
  destruct (re_continuation t); [|reflexivity]. destruct (skip_backslash t 0) as [u c]. destruct u; cbn [put_cont]; auto.
Qed.
Lemma vim_indent neovim ws l ts : ws <> [] -> forallb lead ws = true -> text_eqb (peekn 2 (new_reader (l :: ts))) (T "#!") = false -> wf (new_reader ((ws ++ l) :: ts)) ->
  exists p, (l <> [] -> p = getpos (new_reader (l :: ts))) /\
  match vim_parse neovim (new_reader (l :: ts)), vim_parse neovim (new_reader ((ws ++ l) :: ts)) with
  | OutOfFuel, _ | _, OutOfFuel => True
  | Ok v, Ok v' => exists q vs, v = VToplevel q vs /\ v' = VToplevel p (map (map_pos (ind (N.of_nat (length ws)))) vs)
  | PErr e, PErr e' => exists m q, e = Err_ m q /\ e' = Err_ m (ind (N.of_nat (length ws)) q)
  | Panic k, Panic k' => k' = k
  | _, _ => False
  end.
Proof.
  intros N0 Hw Hl W. set (w := N.of_nat (length ws)). set (c := new_reader ((ws ++ l) :: ts)) in *.
  set (d := put_first l w 1 w w (fun i => build_more ts i 1 (blen l + w) (blen l + w))).
  assert (Ec : c = put_first ws 0 1 0 0 (fun i' => put_first l i' 1 w w (fun i => build_more ts i 1 (blen l + w) (blen l + w)))).
  { unfold c. cbn [new_reader]. rewrite first_join, (lead_blen _ Hw). fold w. rewrite blen_join, (lead_blen _ Hw). fold w. rewrite (N.add_comm w (blen l)). reflexivity. }
  assert (Hs : sfx d c).
  { rewrite Ec. unfold d. exact (first_sfx ws (fun i' => put_first l i' 1 w w (fun i => build_more ts i 1 (blen l + w) (blen l + w))) 0 1 0 0). }
  assert (Sm : sim false (Eof (mkPos 0 0 0 0)) (Eof (mkPos 0 0 0 0)) (ind w) same (new_reader (l :: ts)) d).
  { cbn [new_reader]. unfold d. apply (ind_first1 w _ _ l _ _ 0 0 0). cbn [N.add]. apply ind_build; lia. }
  assert (Ed : is_eof d = false). { unfold d. destruct l; cbn [put_first]; [apply build_open|reflexivity]. }
  assert (Ek : skip_white_and_colon c = skip_white_and_colon d).
  { rewrite Ec. rewrite (skip_lead ws _ 0 1 0 0 Hw). reflexivity. }
  assert (Pd : text_eqb (peekn 2 d) (T "#!") = false).
  { rewrite (sim_peekn _ _ _ _ _ _ _ _ Sm). exact Hl. }
  assert (Pc : text_eqb (peekn 2 c) (T "#!") = false).
  { destruct ws as [|r ws]; [congruence|]. cbn [forallb] in Hw. apply andb_true_iff in Hw. destruct Hw as [Hr _].
    destruct (text_eqb (peekn 2 c) (T "#!")) eqn:E; auto. apply text_eqb_eq in E. exfalso. rewrite Ec in E. unfold peekn in E. cbn [put_first getn] in E.
    destruct (put_first ws _ _ _ _ _) as [|[|r2] p2 c2]; cbn in E; try discriminate E. injection E as -> _. discriminate Hr. }
  exists (getpos c). split. { intros Nl. rewrite Ec. destruct ws as [|r ws]; [congruence|]. destruct l; [congruence|]. reflexivity. }
  assert (V : vim_parse neovim c = bind (cmds_loop neovim (S (clen c)) (mkSt d [mkFrame FTop (getpos c) ea0 []] [])) parse_end).
  { unfold vim_parse, parse_end. f_equal. cbn [cmds_loop]. cbn [cur]. rewrite Ed.
    replace (is_eof c) with false. 2:{ symmetry. destruct (is_eof c) eqn:E; auto. rewrite (sfx_eof _ _ Hs E) in Ed. discriminate. }
    rewrite (one_cmd_skip neovim c d); auto. }
  rewrite V. apply (rest_sequel neovim (ind w) (new_reader (l :: ts)) d (getpos c) [] [] (S (clen c)) (ind_idx w)); auto.
  - eapply wf_sfx; eauto.
  - pose proof (sfx_clen _ _ Hs). lia.
  - split; [constructor|]. split; [constructor|]. reflexivity.
Qed.
Lemma peekn_view s : forall c, peekn (length s) c = s -> exists post, map cell_of (view c) = map R s ++ post.
Proof.
  unfold peekn. induction s as [|r s IH]; intros c H; [exists (map cell_of (view c)); reflexivity|].
  cbn [length getn] in H. destruct c as [p|[|x] p c]; try discriminate H.
  destruct (getn (length s) c) as [s0 c0] eqn:E. cbn [fst] in H. injection H as -> ->. destruct (IH c) as [post Hp]; [rewrite E; reflexivity|].
  exists post. cbn [view map app]. rewrite Hp. reflexivity.
Qed.
Lemma file_indent bs bs' b b' ws l ts file opt : seen_lines bs (l :: ts) -> seen_lines bs' ((ws ++ l) :: ts) ->
  Forall (fun r => r = 32 \/ r = 9 \/ r = 58) ws -> ~ starts_with bs (T "#!") ->
  (forall p body, ParseFile (mkSource bs b) file opt = Returned (NFile p body) ->
     exists p', ParseFile (mkSource bs' b') file opt = Returned (NFile p' (map (map_node (indented (N.of_nat (length ws)))) body)) /\
       (l <> [] -> p' = p)) /\
  (forall e, ParseFile (mkSource bs b) file opt = Failed e ->
     ParseFile (mkSource bs' b') file opt = Failed (indented_error (N.of_nat (length ws)) e)).
Proof.
  intros L L' Hw Hb.
  assert (Hw' : forallb lead ws = true).
  { apply forallb_forall. rewrite Forall_forall in Hw. intros r Hr. destruct (Hw r Hr) as [-> |[-> | ->]]; reflexivity. }
  assert (Hp : text_eqb (peekn 2 (new_reader (l :: ts))) (T "#!") = false).
  { destruct (text_eqb _ _) eqn:E; auto. apply text_eqb_eq in E. apply (peekn_view (T "#!")) in E. destruct E as [post E]. destruct Hb.
    exists (view (new_reader (l :: ts))), post. split; auto. apply (source_view _ b). rewrite (seen_open _ _ _ L). reflexivity. }
  pose proof (open_source_wf (mkSource bs b)) as WB. pose proof (open_source_wf (mkSource bs' b')) as W.
  pose proof (ParseFile_returns (mkSource bs b) file opt) as N1. pose proof (ParseFile_returns (mkSource bs' b') file opt) as N2.
  pose proof (vim_parse_safe (neovim_of opt) _ WB) as VB.
  unfold ParseFile, parse_to_ast in *. fold (neovim_of opt) in *. rewrite (seen_open _ _ _ L), (seen_open _ _ _ L') in *.
  destruct ws as [|x ws].
  { cbn [app length N.of_nat] in *.
    assert (I0 : forall p, indented 0 p = p). { intros []. unfold indented. cbn. rewrite !N.add_0_r. destruct (_ && _) eqn:E, (ap_line =? 1); try reflexivity; f_equal; lia. }
    split.
    - intros p body H. exists p. split; auto. transitivity (Returned (NFile p body)); [exact H|]. f_equal. f_equal. rewrite <- (map_id body) at 1. apply map_ext. intros n. symmetry. rewrite <- (map_node_id n) at 2. apply map_node_ext. intros m y _ _. apply I0.
    - intros e H. transitivity (@Failed node e); [exact H|]. f_equal. destruct e as [f i ln c m|k]; auto. cbn [indented_error]. rewrite !N.add_0_r. destruct (ln =? 1); reflexivity. }
  set (ws0 := x :: ws) in *. destruct (vim_indent (neovim_of opt) ws0 l ts ltac:(discriminate) Hw' Hp W) as [p0 [Ep G]].
  set (w := N.of_nat (length ws0)) in *.
  destruct (vim_parse (neovim_of opt) (new_reader (l :: ts))) as [v|e1|k1|] eqn:EB;
    destruct (vim_parse (neovim_of opt) (new_reader ((ws0 ++ l) :: ts))) as [v'|e2|k2|] eqn:EAB; cbn [bind recovered csafe] in *; try contradiction; try congruence.
  - destruct G as [q0 [vs [-> ->]]]. split.
    + intros p body H. cbn [new_ast] in H |- *. fold (export_stmt file) in *.
      destruct (mapM (export_stmt file) vs) as [b1| | |] eqn:Eb; try discriminate H. cbn [bind recovered] in H. injection H as <- ->.
      assert (Es : mapM (export_stmt file) (map (map_pos (ind w)) vs) = Ok (map (map_node (indented w)) body)).
      { unfold export_stmt. rewrite (casts_map file file (ind w) (indented w)).
        - fold (export_stmt file). rewrite Eb. reflexivity.
        - intros []; reflexivity.
        - apply Forall_forall. intros v _. apply new_ast_map. intros y. reflexivity. }
      rewrite Es. cbn [bind recovered]. eexists. split; [reflexivity|]. intros Nl. rewrite (Ep Nl).
      pose proof VB as [vs1 [? [? [Z _]]]]. injection Z as -> _. reflexivity.
    + intros e H. exfalso. destruct (file_exports file _ _ _ VB) as [q1 [b1 X]]. rewrite X in H. discriminate.
  - split; [discriminate|]. intros e H. destruct G as [mm [q [-> ->]]]. injection H as <-. reflexivity.
  - split; [discriminate|]. intros e H. subst k2. injection H as <-. reflexivity.
Qed.
