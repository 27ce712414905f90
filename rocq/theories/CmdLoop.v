(** The command parser, part 6: from one command to the whole text. *)
From Coq Require Import Lia ZifyBool ZifyNat ZifyN.
From Verif Require Import Base CharClass Reader Vnode Tokenizer ExprParser CmdTable CmdParser
  Cursor Grammar TokSafe ExprSafe Script Fault Safe CmdBase CmdArgs HeadProof CmdPieces CmdOpen CmdSafe.

Lemma csafe_bind_eq {A A'} neovim B (P : A -> Prop) (Q : A' -> Prop) m k :
  csafe neovim B P m -> (forall a, m = Ok a -> P a -> csafe neovim B Q (k a)) -> csafe neovim B Q (bind m k).
Proof. destruct m; cbn; auto. Qed.

Lemma peekline_rest c t : rest_of c t -> peekline c = t.
Proof.
  intros H. unfold peekline. destruct (getn_all c) as [s z] eqn:E. apply getn_all_spells in E. destruct E as [E1 E2].
  eapply rest_unique; [|exact H]. exists z. auto.
Qed.

Section Loop.
Context (neovim : bool) (B : cursor) (HB : wf B).

(** What holds between two commands. *)
Definition inv (st : pstate) : Prop :=
  cache_ok neovim (cache st) /\
  exists w e, opens neovim B w e (ctx st) /\ gap e (cur st).

Lemma inv_sfx st : inv st -> sfx (cur st) B.
Proof.
  intros [_ [w [e [H1 H2]]]]. apply gap_sfx in H2. apply opens_sfx in H1. eapply sfx_trans; eauto.
Qed.

(** A place on the same line with another next character is later. *)
Lemma moved a c r : sfx c a -> peek1 a = Some r -> peek1 c <> Some r -> (clen c < clen a)%nat.
Proof.
  intros H1 H2 H3. pose proof (sfx_clen _ _ H1).
  destruct (Nat.eq_dec (clen c) (clen a)) as [E|E]; [|lia].
  rewrite (sfx_same _ _ H1 E) in H3. congruence.
Qed.

Lemma command_safe e0 line st0 w eo f fs r :
  opens neovim B w eo (f :: fs) -> gap eo line -> ctx st0 = f :: fs -> cache_ok neovim (cache st0) ->
  peek1 line = Some r -> r <> C """" -> same_line line (cur st0) ->
  (ea_modifiers e0 = [] -> ea_range e0 = [] -> gap line (cur st0)) ->
  ea_linepos e0 = Some (getpos line) -> ea_argpos e0 = None -> ea_cmd e0 = None ->
  own e0 = (false, 0, false, 0) -> opts e0 = (0, 0, [], [], []) -> ea_do_ecmd_cmd e0 = [] ->
  (exists tm tr a1, spells tm line a1 /\ spells tr a1 (cur st0) /\
     (forall rest, rest_of (cur st0) rest -> range_text rest tr (ea_range e0)) /\
     forall rest, rest_of a1 rest -> modifiers_text rest tm (ea_modifiers e0)) ->
  csafe neovim B (fun st' => inv st' /\ (clen (cur st') < clen line)%nat) (parse_command neovim e0 line st0).
Proof.
  intros Ho Hg Hx Hk Hr Hq Hl Hgap He1 He2 He3 He4 He5 He6 Hlead. unfold parse_command.
  assert (HlB : sfx line B).
  { apply gap_sfx in Hg. eapply sfx_trans; [exact Hg|]. eapply opens_sfx; eauto. }
  set (c0 := skip_white_and_colon (cur st0)).
  assert (Hc0 : same_line (cur st0) c0) by apply skip_line.
  assert (Hg0 : gap (cur st0) c0) by apply gap_white_colon.
  assert (Hlead0 : exists lead, spells lead line c0 /\ forall rest, rest_of c0 rest ->
            lead_text (head_of (ea_set_cmdpos (getpos c0) e0)) lead rest).
  { destruct Hlead as [tm [tr [a1 [L1 [L2 [L3 L4]]]]]].
    destruct (skip_while_spells (fun r => iswhite r || (r =? C ":")) (cur st0)) as [tb [B1 [B2 _]]].
    fold (skip_white_and_colon (cur st0)) in B1. fold c0 in B1.
    exists (tm ++ tr ++ tb). split. { eapply spells_app; eauto. eapply spells_app; eauto. }
    intros rest Hrest. exists tm, tr, tb. split; [auto|]. split; [|split; [apply L3; eapply rest_app; eauto|]].
    - apply L4. eapply rest_app; eauto. eapply rest_app; eauto.
    - rewrite forallb_forall in B2. intros x Hx2. apply B2 in Hx2. cbn beta in Hx2. unfold iswhite in Hx2.
      change (C " ") with 32 in Hx2. lia. }
  clear Hlead.
  clearbody c0.
  assert (Hlc : same_line line c0) by (eapply same_line_trans; eauto).
  assert (S0 : sfx c0 line) by (apply same_line_sfx; auto).
  assert (S0B : sfx c0 B) by (eapply sfx_trans; eauto).
  cbv zeta. set (e := ea_set_cmdpos (getpos c0) e0).
  assert (Hend : (at_end c0 \/ peek1 c0 = Some (C """")) ->
    csafe neovim B (fun st' => inv st' /\ (clen (cur st') < clen line)%nat)
     (if is_nil (ea_modifiers e) && is_nil (ea_range e) then Ok (with_cur c0 st0)
      else parse_cmd_modifier_range e line (with_cur c0 st0))).
  { intros Hend. assert (Hless : (clen c0 < clen line)%nat).
    { eapply moved; eauto. destruct Hend as [Hend|Hend]; [|congruence].
      destruct c0 as [|[|r0] p t]; cbn in *; try discriminate. }
    destruct (is_nil (ea_modifiers e) && is_nil (ea_range e)) eqn:En.
    - apply andb_true_iff in En. destruct En as [En1 En2].
      assert (M1 : ea_modifiers e0 = []) by (subst e; cbn in En1; destruct (ea_modifiers e0); [auto|discriminate]).
      assert (M2 : ea_range e0 = []) by (subst e; cbn in En2; destruct (ea_range e0); [auto|discriminate]).
      cbn [csafe with_cur cur]. split; auto. split; [auto|]. cbn [ctx cur with_cur]. exists w, eo.
      rewrite Hx. split; [auto|]. eapply gap_trans; [exact Hg|]. eapply gap_trans; eauto.
    - unfold parse_cmd_modifier_range, add_node, with_cur. cbn [cur ctx cache]. rewrite Hx.
      cbn [csafe with_ctx cur]. split; auto. split; [auto|]. cbn [ctx cur]. exists w, c0.
      split; [|constructor].
      apply (opens_extend neovim B w eo f fs line c0 [VExcmd (getpos c0) e (getstr line c0)]); auto.
      destruct Hlead0 as [lead [L1 L2]]. destruct (rest_exists c0) as [rest Hrest].
      apply cn_modifier; auto.
      + eauto.
      + apply andb_false_iff in En. destruct En as [En|En]; [left|right]; intros E; rewrite E in En; discriminate.
      + exists lead, rest. split; [auto|split; [auto|]]. exact (L2 rest Hrest). }
  destruct (peek1 c0) as [r0|] eqn:E0.
  2: { apply Hend. left. destruct c0 as [|[|r0] p t]; cbn in *; try discriminate; auto. }
  destruct (r0 =? C """") eqn:Eq. { apply N.eqb_eq in Eq. subst r0. apply Hend; auto. }
  clear Hend.
  destruct (rest_exists c0) as [line0 Hline0].
  assert (Hcmd : exists ks, pending neovim B w eo ks /\ command_at eo c0).
  { destruct (opens_pending _ _ _ _ _ Ho) as [f' [r' [ks [_ [Hp _]]]]]. exists ks. split; [auto|].
    destruct Hlead0 as [lead [L1 L2]]. exists line, (head_of e), lead, line0. auto. }
  destruct Hcmd as [ks [Hpend Hcmd]].
  destruct (find_command neovim (with_cur c0 st0)) as [o st2] eqn:Ef. pose proof Ef as Ef'.
  apply find_command_post in Ef; [|exact Hk]. cbn [with_cur ctx cur] in Ef.
  destruct Ef as [F1 [F2 [F3 F4]]].
  destruct o as [x|].
  2: { rewrite (peekline_rest _ _ Hline0). apply csafe_report; auto. eapply rp_unknown; eauto.
       eapply (find_command_none neovim (with_cur c0 st0)); [exact Hk|exact Ef'|exact Hline0]. }
  destruct (F4 x eq_refl) as [s [Q1 [Q2 [Q3 [Q4 Q5]]]]]. clear F4.
  set (c1 := cur st2) in *.
  destruct (rest_exists c1) as [r1 Hr1].
  set (force := _ && negb (text_eqb (c_name x) (T "snomagic"))).
  assert (Hforce : force = starts_with (fun z => z =? C "!") r1 && negb (text_eqb (c_name x) (T "substitute")) &&
     negb (text_eqb (c_name x) (T "smagic")) && negb (text_eqb (c_name x) (T "snomagic"))).
  { subst force. rewrite (o_is_rest _ _ _ Hr1). reflexivity. }
  clearbody force.
  set (c2 := if force then snd (getn 1 c1) else c1).
  assert (L2 : exists bang, spells bang c1 c2 /\ force = text_eqb bang (T "!") /\
    (bang = T "!" -> ~ In (c_name x) [T "substitute"; T "smagic"; T "snomagic"]) /\
    (negb (has_flag (T "BANG") x) && force && negb (has_flag (T "USERCMD") x) = false ->
     bang_text x bang r1)).
  { subst c2. destruct force.
    - symmetry in Hforce. rewrite !andb_true_iff, !negb_true_iff in Hforce.
      destruct Hforce as [[[X1 X2] X3] X4].
      assert (X6 : ~ In (c_name x) [T "substitute"; T "smagic"; T "snomagic"]).
      { intros K. cbn [In] in K. destruct K as [K|[K|[K|[]]]]; rewrite <- K in *; discriminate. }
      exists (T "!"). split; [|split; [reflexivity|split; [auto|]]].
      + rewrite <- (o_is_rest _ _ _ Hr1) in X1. apply o_is_peek1 in X1. destruct X1 as [p [t ->]]. cbn. auto.
      + intros X5. left. split; [auto|]. split.
        * exact X6.
        * unfold flag, has_flag in *. destruct (has_word (T "BANG") (c_flags x)); auto.
          destruct (has_word (T "USERCMD") (c_flags x)); auto.
    - exists []. split; [reflexivity|split; [reflexivity|split; [discriminate|]]]. intros _. right. split; auto.
      intros K. apply starts_is_begins in K. change 33 with (C "!") in K. rewrite K in Hforce.
      symmetry in Hforce. rewrite !andb_false_iff, !negb_false_iff in Hforce.
      destruct Hforce as [[[X|X]|X]|X]; [discriminate| | |]; apply text_eqb_eq in X; rewrite X; cbn; auto. }
  clear Hforce. clearbody c2.
  destruct L2 as [bang [Sb [Eb [Hnb Hb]]]].
  destruct (negb (has_flag (T "BANG") x) && force && _) eqn:E477.
  { apply csafe_report; auto. rewrite !andb_true_iff, !negb_true_iff in E477. destruct E477 as [[G1 G2] G3].
    rewrite Eb in G2. apply text_eqb_eq in G2. specialize (Hnb G2). rewrite G2 in Sb.
    eapply rp_bang; eauto. }
  specialize (Hb eq_refl).
  set (c3 := if negb (text_eqb (c_name x) (T "!")) then skip_white c2 else c2).
  assert (L3 : exists white, spells white c2 c3 /\ all_white white /\ (c_name x = T "!" -> white = []) /\
     forall t, rest_of c3 t -> c_name x <> T "!" -> starts_with iswhite t = false).
  { subst c3. destruct (text_eqb (c_name x) (T "!")) eqn:En; cbn [negb].
    - apply text_eqb_eq in En. exists []. split; [reflexivity|]. split; [intros ? []|]. split; [auto|].
      intros; contradiction.
    - destruct (skip_while_spells iswhite c2) as [wh [W1 [W2 W3]]]. exists wh. split; [auto|].
      split; [apply all_white_iff; auto|]. split. { intros K. rewrite K in En. discriminate. }
      intros t Ht _. fold (skip_white c2) in W3. rewrite <- (o_in_rest _ _ _ Ht).
      destruct (peek1 (skip_white c2)); auto. cbn. auto. }
  clearbody c3. destruct L3 as [white [Sw [Hw1 [Hw2 Hw3]]]].
  assert (Lc3 : same_line c0 c3).
  { eapply same_line_trans; [exact F3|]. eapply same_line_trans; eapply spells_line; eauto. }
  assert (S3B : sfx c3 B) by (eapply sfx_trans; [apply same_line_sfx; eauto|auto]).
  set (e2 := ea_set_argpos (getpos c3) (ea_set_cmd x force e)).
  assert (K2 : fixed e2 = (Some (getpos line), Some (getpos c0), Some (getpos c3), Some x,
                           ea_modifiers e0, ea_range e0)).
  { subst e2 e. unfold fixed. cbn. rewrite He1. reflexivity. }
  assert (K3 : own e2 = (force, 0, false, 0)).
  { subst e2 e. unfold own in *. cbn. inversion He4. reflexivity. }
  assert (K4 : opts e2 = (0, 0, [], [], [])) by exact He5.
  assert (K5 : ea_do_ecmd_cmd e2 = []) by exact He6.
  clearbody e2.
  apply (csafe_bind_eq _ _ (args_post e2 c3)).
  { destruct (has_flag (T "ARGOPT") x).
    - apply csafe_of_safe. apply argopt_safe; auto.
    - cbn. split; auto. apply same_line_refl. }
  intros [e3 c4] O1 [A1 A2]. assert (S4B : sfx c4 B) by (eapply sfx_trans; [apply same_line_sfx; eauto|auto]).
  assert (W3 : wf c3) by (eapply wf_sfx; eauto). assert (W4 : wf c4) by (eapply wf_sfx; eauto).
  assert (O1' : exists os t1, spells t1 c3 c4 /\
    (forall rest, rest_of c4 rest -> if flag (T "ARGOPT") x then options_text rest t1 os else t1 = [] /\ os = []) /\ opts_set os e2 e3 /\
    fixed e3 = fixed e2 /\ own e3 = own e2 /\ ea_do_ecmd_cmd e3 = ea_do_ecmd_cmd e2).
  { unfold flag, has_flag in *. destruct (has_word (T "ARGOPT") (c_flags x)).
    - destruct (rest_exists c4) as [r4 Hr4].
      destruct (argopt_ok _ _ _ _ _ r4 W3 O1 Hr4) as [os [t1 [O1' [O2 [O3 O4]]]]]. exists os, t1.
      split; [auto|]. split; [|auto]. intros rest Hrest. rewrite (rest_unique _ _ _ Hrest Hr4). auto.
    - inversion O1; subst. exists [], []. repeat split. }
  clear O1. destruct O1' as [os [t1 [O1 [O2 [O3 [O5 [O6 O7]]]]]]].
  eapply csafe_bind_eq.
  { eapply (ends_csafe neovim B). apply (write_args_ends B HB (c_name x) c0 e3 c4); auto.
    intros s0 m [-> [-> [W5 [W6 W7]]]]. split; [auto|]. eapply rp_write; eauto.
    eapply same_line_trans; [eapply spells_line; exact Sb|]. eapply same_line_trans; [eapply spells_line; exact Sw|auto]. }
  intros [e4 c5] O8 [A3 A4].
  destruct (read_args (c_name x) e4 c5) as [e5 c6] eqn:E5.
  pose proof (read_args_post (c_name x) e4 c5) as A5. rewrite E5 in A5. destruct A5 as [A5 A6].
  destruct (shift_args (c_name x) e5 c6) as [e6 c7] eqn:E6.
  pose proof (shift_args_post (c_name x) e5 c6) as A7. rewrite E6 in A7. destruct A7 as [A7 A8].
  destruct (if has_flag (T "EDITCMD") x && negb (ea_usefilter e6) then parse_argcmd e6 c7 else (e6, c7))
    as [e7 c8] eqn:E7.
  destruct (rest_exists c8) as [rest Hrest]. destruct (rest_exists c7) as [r7 Hr7].
  assert (Ho3 : own e3 = (force, 0, false, 0)) by congruence.
  destruct (own_ok _ _ force _ _ _ _ _ _ _ _ _ W4 Ho3 O8 E5 E6 Hr7) as [t2 [U1 [U2 [U3 [U4 U5]]]]].
  assert (W7 : wf c7) by (eapply wf_sfx; [eapply spells_sfx; exact U1|auto]).
  assert (He7 : ea_do_ecmd_cmd e6 = []) by congruence.
  destruct (ecmd_ok _ _ _ _ _ _ W7 He7 E7 Hrest) as [t3 [V1 [V2 [V3 [V4 V5]]]]].
  assert (Er7 : r7 = t3 ++ rest) by (eapply rest_unique; eauto; eapply rest_app; eauto).
  assert (Sall : spells (t1 ++ t2 ++ t3) c3 c8) by (eapply spells_app; eauto; eapply spells_app; eauto).
  assert (K7 : fixed e7 = (Some (getpos line), Some (getpos c0), Some (getpos c3), Some x,
                           ea_modifiers e0, ea_range e0)) by congruence.
  assert (L8 : same_line c3 c8) by (eapply spells_line; eauto).
  unfold fixed in K7. inversion K7 as [[K7a K7b K7c K7d K7e K7f]].
  destruct Hlead0 as [lead [Le1 Le2]].
  assert (Hr3 : rest_of c3 ((t1 ++ t2 ++ t3) ++ rest)) by (eapply rest_app; eauto).
  assert (Hrb : rest_of c1 (bang ++ white ++ (t1 ++ t2 ++ t3) ++ rest)).
  { eapply rest_app; eauto. eapply rest_app; eauto. }
  assert (Er1 : r1 = bang ++ white ++ (t1 ++ t2 ++ t3) ++ rest) by (eapply rest_unique; eauto).
  assert (Hh : header neovim line c0 c3 c8 x e7).
  { constructor; auto.
    - exists r; auto.
    - exists s. split; [auto|split; [auto|split; [auto|]]].
      exists c1. split; auto. eapply same_line_trans; eapply spells_line; eauto.
    - exists lead, s, bang, white, (t1 ++ t2 ++ t3), rest, c1, c2.
      repeat (split; [assumption|]). constructor.
      + unfold lead_text, head_of. cbn [hf_modifiers hf_range]. rewrite K7e, K7f. apply Le2. eapply rest_app; eauto.
      + apply Q5; auto.
      + rewrite <- Er1. exact Hb.
      + auto.
      + split; auto.
      + cbn [head_of hf_bin hf_edit hf_format hf_encoding hf_bad hf_forceit hf_append hf_usefilter hf_amount hf_ecmd].
        exists os, t1, t2, t3. split; [auto|]. split; [apply O2; eapply rest_app; eauto; eapply rest_app; eauto|].
        assert (Ho7 : opts e7 = opts e3) by congruence. unfold opts in Ho7, K4.
        injection Ho7 as -> -> -> -> ->. destruct O3 as [-> [-> [-> [-> ->]]]].
        injection K4 as -> -> -> -> ->. repeat (split; [reflexivity|]).
        unfold own in V4. injection V4 as -> -> -> ->.
        split; [|exact V2]. rewrite <- Eb, <- Er7. exact U2. }
  destruct (header_sfx _ _ _ _ _ _ _ Hh) as [J1 [J2 [J3 J4]]].
  eapply csafe_imp.
  2: { eapply (dispatch_safe neovim B HB (mkEc e7 line c0 c3 x) (with_cur c8 st2) w eo f fs s); auto.
       constructor; auto. cbn [with_cur ctx]. congruence. }
  intros st' [P1 [P2 [w' P3]]]. cbn [with_cur cur] in P2. split.
  - split; auto. exists w', (cur st'). split; auto. constructor.
  - apply sfx_clen in P2, J1, J3. lia.
Qed.

Lemma comment_step w e f fs p t s q u : opens neovim B w e (f :: fs) -> gap e (Cons (R (C """")) p t) ->
  spells s t (Cons EOL q u) -> opens neovim B w (Cons EOL q u) (add_body_all [VComment p s] f :: fs).
Proof. intros H1 H2 H3. eapply opens_extend; eauto. apply cn_comment; auto. reflexivity. Qed.

Lemma one_safe st : inv st -> is_eof (cur st) = false ->
  csafe neovim B (fun st' => inv st' /\ (clen (cur st') < clen (cur st))%nat) (parse_one_cmd neovim st).
Proof.
  intros Hi Hne. pose proof (inv_sfx _ Hi) as HcB. pose proof (wf_sfx _ _ HcB HB) as Hw.
  destruct Hi as [Hk [w [e [Ho Hg]]]]. destruct (opens_cons _ _ _ _ _ Ho) as [f [fs Hx]].
  unfold parse_one_cmd.
  destruct (text_eqb (peekn 2 (cur st)) (T "#!")) eqn:Eb.
  { apply text_eqb_eq in Eb. destruct (peekn_getn _ _ _ Eb) as [c1 [_ Sp]].
    destruct (getn_all (cur st)) as [l c2] eqn:El.
    destruct (getall_eol _ _ _ Hw Hne El) as [q [u ->]].
    apply getn_all_spells in El. destruct El as [El1 El2].
    assert (Hl : exists s, l = T "#!" ++ s).
    { clear -Sp El1. destruct (cur st) as [|[|r] p t]; cbn in Sp; try contradiction.
      destruct Sp as [-> Sp]. destruct t as [|[|r] p2 t]; try contradiction. destruct Sp as [-> Sp].
      destruct l as [|l1 l]; cbn in El1; [discriminate|]. destruct El1 as [-> El1].
      destruct l as [|l2 l]; cbn in El1; [discriminate|]. destruct El1 as [-> El1]. exists l; auto. }
    destruct Hl as [s ->]. cbn [snd get csafe with_cur cur]. split.
    - split; [auto|]. exists w, e. cbn [with_cur ctx cur]. split; auto. eapply gap_trans; [exact Hg|].
      eapply gap_bang; eauto. repeat constructor.
    - apply spells_clen in El1. rewrite app_length in El1. cbn [clen] in El1. cbn in El1. lia. }
  set (c := skip_white_and_colon (cur st)).
  assert (Hc : same_line (cur st) c) by apply skip_line.
  assert (Hgc : gap e c) by (eapply gap_trans; [exact Hg|apply gap_white_colon]).
  clearbody c. apply same_line_sfx in Hc. assert (S0 : sfx c B) by (eapply sfx_trans; eauto).
  pose proof (sfx_clen _ _ Hc) as Hcl. pose proof (wf_sfx _ _ S0 HB) as Hwc.
  cbv zeta. destruct (peek1 c) as [r|] eqn:E.
  2: { cbn [csafe with_cur cur]. split; [split; [auto|]|].
       - exists w, e. cbn [ctx cur]. split; auto. eapply gap_trans; [exact Hgc|].
         destruct c as [|[|r] p t]; cbn in *; try discriminate; repeat constructor.
       - destruct c as [p|[|r] p t]; cbn in *; try discriminate; [|lia].
         destruct (cur st); cbn in *; [discriminate|lia]. }
  destruct (peek1_some _ _ E) as [p [t ->]].
  destruct (r =? C """") eqn:Eq.
  { apply N.eqb_eq in Eq. subst r. unfold parse_comment. cbn [cur with_cur get].
    cbn [ch_of_cell ch_is]. rewrite N.eqb_refl. cbn [negb].
    destruct (getn_all t) as [s c2] eqn:E3.
    assert (Hw' : wf t) by exact (wf_tail _ _ _ Hwc).
    assert (He : is_eof t = false) by exact (wf_next _ _ _ Hwc).
    destruct (getall_eol _ _ _ Hw' He E3) as [q [u ->]]. apply getn_all_spells in E3.
    destruct E3 as [E3 _].
    unfold add_node. cbn [ctx with_cur with_ctx cur cache]. rewrite Hx.
    cbn [bind csafe with_cur with_ctx cur ctx cache get snd]. split.
    - split; [auto|]. cbn [ctx cur]. exists w, (Cons EOL q u). split; [|repeat constructor].
      rewrite Hx in Ho. eapply comment_step; eauto.
    - apply spells_clen in E3. cbn [clen] in *. lia. }
  apply N.eqb_neq in Eq.
  eapply csafe_bind_eq. apply (modifiers_safe neovim B (S (clen (Cons (R r) p t))) (Cons (R r) p t)); auto.
  intros [ms c1] M0 [M1 M2]. assert (S1 : sfx c1 B) by (eapply sfx_trans; [apply same_line_sfx; eauto|auto]).
  eapply csafe_bind_eq. apply csafe_of_safe. apply (parse_range_safe B HB c1); auto.
  intros [rs c2] R0 [R1 R2]. rewrite Hx in Ho.
  eapply csafe_bind.
  { eapply (command_safe (ea_set_range rs (ea_set_mods ms (ea_set_line (getpos (Cons (R r) p t)) ea0)))
             (Cons (R r) p t) (with_cur c2 (with_cur (Cons (R r) p t) st)) w e f fs r); auto.
    - cbn [with_cur cur]. eapply same_line_trans; eauto.
    - cbn [with_cur cur]. cbn. intros -> ->. eapply gap_trans; eauto.
    - cbn [with_cur cur]. cbn [ea_range ea_modifiers ea_set_range ea_set_mods].
      destruct (rest_exists c2) as [r2 Hr2].
      destruct (range_text_ok _ _ _ r2 (wf_sfx _ _ S1 HB) R0 Hr2) as [tr [R3 R4]].
      destruct (rest_exists c1) as [r1 Hr1].
      destruct (modifiers_text_ok _ _ _ _ _ M0 Hr1) as [tm [M3 M4]].
      exists tm, tr, c1. split; [auto|split; [auto|split; [intros rest Hrest; rewrite (rest_unique _ _ _ Hrest Hr2); auto|]]].
      intros rest Hrest. rewrite (rest_unique _ _ _ Hrest Hr1). auto. }
  intros st2 [I2 Hless]. pose proof (inv_sfx _ I2) as HsB. destruct I2 as [Hk2 [w2 [e2 [Ho2 Hg2]]]].
  destruct (opens_cons _ _ _ _ _ Ho2) as [f2 [fs2 Hx2]]. rewrite Hx2 in Ho2.
  apply csafe_of_safe. eapply safe_imp; [|apply (trail_safe B HB st2 f2 fs2); auto].
  intros st3 [T1 [cms [T2 T3]]].
  assert (Hsx := dtrail_sfx _ _ _ T2). apply sfx_clen in Hsx. split; [|lia].
  split. rewrite T1; auto. rewrite T3.
  assert (Hf : f2 = add_body_all [] f2) by (destruct f2; unfold add_body_all; cbn; rewrite app_nil_r; auto).
  inversion T2; subst cms.
  - exists w2, e2. rewrite <- Hf. split; auto. eapply gap_trans; [exact Hg2|]. apply dtrail_gap; exact T2.
  - exists w2, e2. rewrite <- Hf. split; auto. eapply gap_trans; [exact Hg2|]. apply dtrail_gap; exact T2.
  - exists w2, e2. rewrite <- Hf. split; auto. eapply gap_trans; [exact Hg2|]. apply dtrail_gap; exact T2.
  - exists w2, (Cons EOL q (cur st3)). split; [|repeat constructor].
    eapply comment_step; eauto. eapply gap_trans; [exact Hg2|]. apply gap_blank; auto. 
Qed.

Lemma loop_safe : forall n st, inv st -> (clen (cur st) < n)%nat ->
  csafe neovim B (fun st' => inv st' /\ is_eof (cur st') = true) (cmds_loop neovim n st).
Proof.
  induction n as [|n IH]; intros st Hi Hn; [lia|]. cbn [cmds_loop].
  destruct (is_eof (cur st)) eqn:E. { cbn; auto. }
  csafe_b. apply one_safe; auto. intros st1 [H1 H2]. apply IH; auto. lia.
Qed.

Lemma vim_parse_safe : csafe neovim B (script neovim B) (vim_parse neovim B).
Proof.
  unfold vim_parse. csafe_b. apply loop_safe.
  - split; [constructor|]. exists top_place, B. cbn [ctx cur]. split; [|constructor].
    apply ob_top. constructor.
  - cbn [cur]. lia.
  - intros st [Hi He]. pose proof (inv_sfx _ Hi) as HsB. destruct Hi as [Hk [w [e [Ho Hg]]]].
    destruct (opens_cons _ _ _ _ _ Ho) as [f [fs Hx]]. unfold top_frame. rewrite Hx in *. cbn [bind].
    destruct (opens_pending _ _ _ _ _ Ho) as [f' [r' [ks [Ef [Hpe Hbl]]]]]. inversion Ef; subst f' r'. clear Ef.
    destruct (is_function (f_kind f)) eqn:E1.
    { destruct (f_kind f); try discriminate E1. cbn [block_of] in Hbl. destruct ks as [|k0 ks]; [discriminate Hbl|].
      inversion Hbl; subst k0. apply csafe_report; auto. eapply rp_open; eauto. }
    assert (Hmis : forall k0 m, innermost ks k0 -> missing k0 m -> csafe neovim B (script neovim B) (raise (m ++ T ":    TOPLEVEL") (getpos (cur st)))).
    { intros k0 m K1 K2. destruct ks as [|k1 ks]; [discriminate K1|]. inversion K1; subst k1.
      apply csafe_report; auto. eapply rp_missing; eauto. }
    unfold check_missing_if_try_loops.
    destruct (is_if_part (f_kind f)) eqn:E2.
    { destruct (f_kind f); try discriminate E2; (eapply (Hmis _ (T "E171: Missing :endif")); [exact Hbl|constructor; cbn; auto]). }
    destruct (is_try_part (f_kind f)) eqn:E3.
    { destruct (f_kind f); try discriminate E3; (eapply (Hmis _ (T "E600: Missing :endtry")); [exact Hbl|constructor; cbn; auto]). }
    destruct (is_while (f_kind f)) eqn:E4.
    { destruct (f_kind f); try discriminate E4; (eapply (Hmis _ (T "E170: Missing :endwhile")); [exact Hbl|constructor; cbn; auto]). }
    destruct (is_for (f_kind f)) eqn:E5.
    { destruct (f_kind f); try discriminate E5; (eapply (Hmis _ (T "E170: Missing :endfor")); [exact Hbl|constructor; cbn; auto]). }
    assert (Ek : f_kind f = FTop) by (destruct (f_kind f); try discriminate; auto).
    destruct (opens_top _ _ _ _ _ _ Ho Ek) as [_ [_ [Hp Hb]]]. cbn [bind csafe].
    exists (f_body f), e, (cur st). rewrite Hp. auto.
Qed.

End Loop.
