(** Listings: :let, :const and :function without an assignment or a definition are read as
    text. *)
From Coq Require Import Lia ZifyBool ZifyNat ZifyN.
From Verif Require Import Base CharClass Reader Vnode Token Tokenizer ExprParser Cursor Grammar TokSafe Ast Export Join JoinProof Head HeadProof Script Extent CmdSpec
  Written WrittenProof Lookahead WrittenBrace PrintBack CmdTable CmdParser CmdBase CmdArgs OneLine Rest RestProof WrittenScript TargetProof ArgsProof StmtShow FindBack LineProof.

Lemma mem_In x l : In x l -> mem_N x l = true.
Proof. induction l as [|y l IH]; cbn [In mem_N]; [tauto|]. intros [->|H]; [rewrite N.eqb_refl; reflexivity|]. rewrite (IH H), orb_true_r. reflexivity. Qed.
Lemma ident_shown p s n : shows (VIdent p s) n -> exists q, n = NIdent q s.
Proof.
  intros [n' [E [_ U]]]. cbn [new_ast] in E. injection E as <-. unfold unplaced in U. destruct n; try discriminate. injection U as <-. eauto.
Qed.
Lemma function_name v n : shows v n -> funcname n ->
  match v with VIdent p s => let* bad := bad_function_name s in if bad : bool then raise (T "E128: Function name must start with a capital or contain a colon: " ++ s) p else Ok tt | _ => Ok tt end = Ok tt.
Proof.
  intros Sv Hf. destruct v as [] eqn:Ev; try reflexivity. match goal with H : _ = VIdent ?p0 ?s0 |- _ => set (s := s0) in *; clearbody s end. apply ident_shown in Sv. destruct Sv as [q ->]. cbn [funcname] in Hf.
  assert (E : bad_function_name s = Ok false); [|rewrite E; reflexivity].
  unfold bad_function_name. destruct s as [|r s].
  { exfalso. destruct Hf as [[? [? [H _]]]|[[]|[]]]. discriminate. }
  f_equal. destruct Hf as [[r' [t' [E H]]]|[H|H]].
  - injection E as <- <-. destruct H as [->|[->|H]]; [reflexivity|reflexivity|]. rewrite H. cbn [negb]. rewrite !andb_false_r. reflexivity.
  - apply mem_In in H. rewrite H. cbn [negb]. rewrite !andb_false_r. reflexivity.
  - apply mem_In in H. rewrite H. cbn [negb]. rewrite !andb_false_r. reflexivity.
Qed.


(** The left side, when what follows stops it. *)
Lemma read_lhs_stop (ok : node -> Prop) one w next l ls r s c k :
  (forall n s c k, written_target n s -> ok n -> spells s c k -> wf c -> lstop n k -> exists v, one c = Ok (v, k) /\ shows v n) ->
  written_lhs ok w next l ls r s -> spells s c k -> wf c -> (forall n, rightmost n = n -> follows n w next -> lstop n k) ->
  exists x, parse_lhs one c = Ok (x, k).
Proof.
  intros Hone H Sp Wf Hst. unfold parse_lhs. inversion H as [n s' Hn Hok Hfo|ns r' s' Hns]; subst.
  - assert (Hls : lstop n k) by (apply Hst; auto; apply (target_expr n s); auto).
    destruct (read_target n s [] c k Hn eq_refl Sp Wf Hls) as [_ [t [d [Ht Hf]]]]. rewrite Ht. cbn [bind].
    assert (Hq : tok_eqb (tk t) KSqOpen = false) by (destruct (tk t); try discriminate Hf; try reflexivity; destruct o; try discriminate Hf; destruct m; try discriminate Hf; reflexivity). rewrite Hq.
    destruct (Hone n s c k Hn Hok Sp Wf Hls) as [v [E Sh]]. rewrite E. cbn [bind]. eauto.
  - apply spells_split in Sp. destruct Sp as [c1 [S1 S2]]. destruct (punct_get (C "[") KSqOpen [] c c1 eq_refl eq_refl S1) as [q Ht].
    rewrite Ht. cbn [bind tk]. change (tok_eqb KSqOpen KSqOpen) with true. cbv iota.
    destruct (read_targets _ _ _ Hns c1 k (S (clen c1)) S2 (spells_wf _ _ _ S1 Wf) ltac:(lia)) as [vs [r' [E [Sh1 Sh2]]]].
    rewrite E. cbn [bind]. eauto.
Qed.

(** Nothing that could start an assignment or a parameter list. *)
Lemma rest_head w r u : no_operator w (r :: u) -> ~ In r (T "+-.*/%(") /\ iswhite r = false.
Proof.
  assert (A : forall r, ~ In r (T "+-.*/%( ") -> r <> 9 -> ~ In r (T "+-.*/%(") /\ iswhite r = false).
  { intros x H1 H2. split; [cbn in *; tauto|]. unfold iswhite. cbn in H1. lia. }
  intros H. inversion H; subst; try (apply A; [cbn; lia|lia]).
  - apply A; cbn in *; lia.
  - unfold isdigit, between in *. apply A; cbn in *; lia.
  - unfold isnamec1, iswordc1, isalpha, isupper, islower, between in *. apply A; cbn in *; lia.
Qed.

Lemma rest_skip w u c d m : gap w -> no_operator w u -> spells w c d -> spells u d m -> at_end m -> skip_white c = d.
Proof.
  intros Hw Hu Sw Su He. apply (skip_gap w); auto. destruct u as [|r u].
  - cbn in Su. subst m. apply end_peek; auto.
  - apply rest_head in Hu. apply spells_head in Su. destruct Su as [? [? [-> _]]]. apply Hu.
Qed.

Lemma rest_no_assign w u c m : no_operator w u -> ~ begins (T "=") u -> spells u c m -> at_end m ->
  ends_excmds1 (peek1 c) || (negb (is_assign_op (let s := peekn 2 c in if text_eqb s (T "..") || text_eqb s (T "=<") then peekn 3 c else s)) &&
    negb (text_eqb (let s := peekn 2 c in if text_eqb s (T "..") || text_eqb s (T "=<") then peekn 3 c else s) (T "=<<")) && negb (text_eqb (peekn 1 c) (T "="))) = true.
Proof.
  intros Hu He Sp Hm. destruct u as [|r u].
  - cbn in Sp. subst m. unfold at_end in Hm. rewrite Hm. reflexivity.
  - apply rest_head in Hu. destruct Hu as [Hr _]. apply spells_head in Sp. destruct Sp as [p [t [-> _]]].
    assert (H2 : forall n, exists y, peekn (S n) (Cons (R r) p t) = r :: y).
    { intros n. unfold peekn. cbn [getn]. destruct (getn n t). cbn. eauto. }
    assert (He' : r <> C "="). { intros ->. apply He. exists u. reflexivity. }
    assert (A : forall y, is_assign_op (r :: y) = false /\ text_eqb (r :: y) (T "=<<") = false /\ text_eqb (r :: y) (T "=") = false).
    { intros y. split; [|split].
      - destruct (is_assign_op (r :: y)) eqn:E; auto. exfalso. apply mem_text_In in E. cbn in E, Hr.
        repeat (destruct E as [E|E]; [injection E as E _; lia|]). contradiction.
      - destruct (text_eqb _ _) eqn:E; auto. apply text_eqb_eq in E. injection E as E _. contradiction.
      - destruct (text_eqb _ _) eqn:E; auto. apply text_eqb_eq in E. injection E as E _. contradiction. }
    apply orb_true_iff. right. cbv zeta.
    destruct (H2 0%nat) as [y1 ->]. destruct (H2 1%nat) as [y2 ->]. destruct (H2 2%nat) as [y3 ->].
    destruct (text_eqb (r :: y2) (T "..") || text_eqb (r :: y2) (T "=<")).
    + destruct (A y3) as [-> [-> _]]. destruct (A y1) as [_ [_ ->]]. reflexivity.
    + destruct (A y2) as [-> [-> _]]. destruct (A y1) as [_ [_ ->]]. reflexivity.
Qed.

Lemma gap_end w u k m : gap w -> spells (w ++ u) k m -> at_end m -> u = [] \/ begins (T "|") u \/ begins (T """") u ->
  ends_excmds (peek (skip_white k)) = true.
Proof.
  intros Hw Sp He Hu. apply spells_split in Sp. destruct Sp as [d [Sw Su]].
  assert (Hd : ends_excmds (peek d) = true /\ ch_in iswhite (peek d) = false).
  { destruct Hu as [->|[[v ->]|[v ->]]].
    - cbn in Su. subst m. split; [|apply end_peek; auto]. destruct d as [|[|x] ? ?]; auto. discriminate He.
    - apply spells_head in Su. destruct Su as [? [? [-> _]]]. split; reflexivity.
    - apply spells_head in Su. destruct Su as [? [? [-> _]]]. split; reflexivity. }
  rewrite (skip_gap w k d); tauto.
Qed.

Lemma listing_back rest k ec st : listing (c_parser (ec_x ec)) rest -> rest_of k rest -> wf k -> cur st = k ->
  dispatch ec st = parse_cmd_common ec st.
Proof.
  intros H [m [Sp He]] Wf Hk. set (P := c_parser (ec_x ec)) in *. assert (HP : c_parser (ec_x ec) = P) by reflexivity. clearbody P.
  destruct H as [w u Hin Hw Hu|w0 l ls r s w u E Hw0 Hl Hw Hz Hq|w0 l ls r s w u E Hw0 Hl Hw Hz Hq|w u E Hw|w0 n s w u E Hw0 Hn Hfn Hfo Hw Hz].
  - pose proof (gap_end w u k m Hw Sp He Hu) as Hx. subst k.
    cbn [listing_parsers In] in Hin. destruct Hin as [Hin|[Hin|[Hin|[]]]]; rewrite <- Hin in HP.
    + rewrite (dispatch_is _ parse_cmd_let ec _ HP eq_refl). unfold parse_cmd_let. rewrite Hx. reflexivity.
    + rewrite (dispatch_is _ parse_cmd_const ec _ HP eq_refl). unfold parse_cmd_const. rewrite Hx. reflexivity.
    + rewrite (dispatch_is _ parse_cmd_function ec _ HP eq_refl). unfold parse_cmd_function. rewrite Hx. reflexivity.
  - rewrite E in HP. rewrite (dispatch_is _ parse_cmd_let ec _ HP eq_refl). unfold parse_cmd_let. rewrite Hk.
    apply spells_split in Sp. destruct Sp as [d [S0 Sp]]. apply spells_split in Sp. destruct Sp as [d1 [S1 Sp]].
    pose proof (spells_wf _ _ _ S0 Wf) as Wd. pose proof (spells_wf _ _ _ S1 Wd) as Wd1.
    destruct (lhs_head _ _ _ _ _ _ _ Hl) as [x1 [y1 [El [Hx1 Hx2]]]].
    assert (Hgl : good_head s) by (exists x1, y1; auto).
    assert (Hs0 : skip_white k = d /\ ends_excmds (peek d) = false).
    { destruct (head_skip s w0 k d1 Hgl Hw0) as [c1 [r1 [Q1 [Q2 _]]]]; [eapply spells_app; eauto|]. rewrite (spells_fun _ _ _ _ S0 Q2) in *. split; auto.
      rewrite El in S1. apply spells_head in S1. destruct S1 as [? [? [-> _]]]. cbn [peek ch_of_cell]. rewrite head_not_end by auto. cbn in *. lia. }
    destruct Hs0 as [-> ->].
    destruct (read_lhs_stop variable parse_lvalue w u l ls r s d d1) as [[[x y] z] Ez]; auto.
    { intros nn ss cc kk Z1 Z2 Z3 Z4 Z5. exact (read_lvalue nn ss [] cc kk Z1 Z2 eq_refl Z3 Z4 Z5). }
    { intros n Hr Hf. eapply stop_lstop. rewrite <- Hr. eapply rest_stop; eauto. }
    rewrite Ez. cbn [bind]. apply spells_split in Sp. destruct Sp as [d2 [S2 Sp]]. rewrite (rest_skip w u d1 d2 m Hw Hz S2 Sp He).
    pose proof (rest_no_assign w u d2 m Hz Hq Sp He) as Hop. cbv zeta in *. rewrite Hop. reflexivity.
  - rewrite E in HP. rewrite (dispatch_is _ parse_cmd_const ec _ HP eq_refl). unfold parse_cmd_const. rewrite Hk.
    apply spells_split in Sp. destruct Sp as [d [S0 Sp]]. apply spells_split in Sp. destruct Sp as [d1 [S1 Sp]].
    pose proof (spells_wf _ _ _ S0 Wf) as Wd. pose proof (spells_wf _ _ _ S1 Wd) as Wd1.
    destruct (lhs_head _ _ _ _ _ _ _ Hl) as [x1 [y1 [El [Hx1 Hx2]]]].
    assert (Hgl : good_head s) by (exists x1, y1; auto).
    assert (Hs0 : skip_white k = d /\ ends_excmds (peek d) = false).
    { destruct (head_skip s w0 k d1 Hgl Hw0) as [c1 [r1 [Q1 [Q2 _]]]]; [eapply spells_app; eauto|]. rewrite (spells_fun _ _ _ _ S0 Q2) in *. split; auto.
      rewrite El in S1. apply spells_head in S1. destruct S1 as [? [? [-> _]]]. cbn [peek ch_of_cell]. rewrite head_not_end by auto. cbn in *. lia. }
    destruct Hs0 as [-> ->].
    destruct (read_lhs_stop const_variable parse_constlvalue w u l ls r s d d1) as [[[x y] z] Ez]; auto.
    { intros nn ss cc kk Z1 Z2 Z3 Z4 Z5. exact (read_constlvalue nn ss [] cc kk Z1 Z2 eq_refl Z3 Z4 Z5). }
    { intros n Hr Hf. eapply stop_lstop. rewrite <- Hr. eapply rest_stop; eauto. }
    rewrite Ez. cbn [bind]. apply spells_split in Sp. destruct Sp as [d2 [S2 Sp]]. rewrite (rest_skip w u d1 d2 m Hw Hz S2 Sp He).
    replace (ends_excmds1 (peek1 d2) || negb (o_is (peek1 d2) (C "="))) with true; [reflexivity|].
    symmetry. destruct u as [|x1' u]; [cbn in Sp; subst m; unfold at_end in He; rewrite He; reflexivity|].
    apply spells_head in Sp. destruct Sp as [? [? [-> _]]]. cbn [peek1 o_is]. apply orb_true_iff. right. apply negb_true_iff.
    apply N.eqb_neq. intros ->. apply Hq. eexists; reflexivity.
  - rewrite E in HP. rewrite (dispatch_is _ parse_cmd_function ec _ HP eq_refl). unfold parse_cmd_function. rewrite Hk.
    apply spells_split in Sp. destruct Sp as [d [S0 Sp]]. apply spells_head in Sp. destruct Sp as [? [? [-> _]]].
    rewrite (skip_gap w k _ Hw S0) by reflexivity. reflexivity.
  - rewrite E in HP. rewrite (dispatch_is _ parse_cmd_function ec _ HP eq_refl). unfold parse_cmd_function. rewrite Hk.
    apply spells_split in Sp. destruct Sp as [d [S0 Sp]]. apply spells_split in Sp. destruct Sp as [d1 [S1 Sp]].
    pose proof (spells_wf _ _ _ S0 Wf) as Wd. pose proof (spells_wf _ _ _ S1 Wd) as Wd1.
    pose proof (target_head _ _ Hn) as Hth. pose proof (head_good _ Hth) as Hg.
    assert (Hls : lstop n d1). { eapply stop_lstop. rewrite <- (proj2 (target_expr n s Hn)). eapply rest_stop; eauto. }
    destruct Hth as [r0 [y0 [Esn [Hr0 [Hr1 _]]]]].
    destruct (read_target n s [] d d1 Hn eq_refl S1 Wd Hls) as [_ [tf [df [Tf Lf]]]].
    assert (Hs0 : skip_white k = d).
    { destruct (head_skip s w0 k d1 Hg Hw0) as [c1 [r1 [Q1 [Q2 _]]]]; [eapply spells_app; eauto|]. rewrite (spells_fun _ _ _ _ S0 Q2) in *. auto. }
    rewrite Hs0.
    assert (Hpk : ends_excmds (peek d) = false /\ o_is (peek1 d) (C "/") = false).
    { subst s. apply spells_head in S1. destruct S1 as [? [? [-> _]]]. cbn [peek ch_of_cell peek1 o_is]. rewrite head_not_end by auto. split; [clear - Hr1; cbn in *; lia|].
      destruct (r0 =? C "/") eqn:E1; auto. apply N.eqb_eq in E1. subst r0. exfalso. vm_compute in Tf. injection Tf as <- <-. discriminate Lf. }
    destruct Hpk as [-> ->].
    assert (Hns : forall x y u v, n <> NSlice x y u v) by (intros ? ? ? ? ->; exact Hfn).
    destruct (read_lvalue_func n s [] d d1 Hn Hns eq_refl S1 Wd Hls) as [v [Ev Sv]]. rewrite Ev. cbn [bind].
    rewrite (function_name v n Sv Hfn). cbn [bind]. apply spells_split in Sp. destruct Sp as [d2 [S2 Sp]].
    rewrite (rest_skip w u d1 d2 m Hw Hz S2 Sp He).
    replace (o_is (peek1 d2) (C "(")) with false; [reflexivity|]. symmetry.
    destruct u as [|x1' u]; [cbn in Sp; subst m; unfold at_end in He; rewrite He; reflexivity|].
    apply rest_head in Hz. apply spells_head in Sp. destruct Sp as [? [? [-> _]]]. cbn [peek1 o_is]. apply N.eqb_neq. intros ->. apply Hz. cbn. tauto.
Qed.
