(** Commands on one line, as they are written, are parsed to their statement. *)
From Coq Require Import Lia ZifyBool ZifyNat ZifyN.
From Verif Require Import Base CharClass Reader Vnode Token Tokenizer ExprParser Cursor Grammar TokSafe Ast Export Join JoinProof Head HeadProof Script Written WrittenProof Lookahead WrittenBrace PrintBack CmdTable CmdParser CmdBase CmdArgs OneLine WrittenScript TargetProof ArgsProof StmtShow FindBack CmdSpec NodeHead HeadBack.

(** * The head of a command *)

Definition no_more (r : N) : bool := isalpha r || (r =? C "!").

(** The head that is read is the head that is described. *)
Lemma head_same e a x : head_of e = ast_head a -> ea_cmd e = Some x -> ae_cmd a = Some x -> placed_head a ->
  ea_linepos e <> None -> ea_cmdpos e <> None -> ea_argpos e <> None -> same_head e a.
Proof.
  intros H E1 E2 [P1 [P2 P3]] Q1 Q2 Q3. unfold head_of, ast_head in H. injection H as H1 H2 H3 H4 H5 H6 H7 H8 H9 H10 H11 H12.
  unfold same_head, new_exarg, map_exarg. cbn [ae_forceit ae_do_ecmd_cmd ae_append ae_usefilter ae_amount ae_force_bin ae_read_edit ae_force_ff ae_force_enc ae_bad_char ae_linepos ae_cmdpos ae_argpos ae_cmd ae_modifiers ae_range].
  rewrite H1, H2, H3, H4, H5, H6, H7, H8, H9, H10, H11, H12, E1, E2.
  destruct (ea_linepos e), (ea_cmdpos e), (ea_argpos e), (ae_linepos a), (ae_cmdpos a), (ae_argpos a); try congruence; reflexivity.
Qed.
Lemma stmt_not_bang nv line w x : resolves nv line w x -> In (c_parser x) stmt_parsers -> c_name x <> T "!".
Proof.
  intros [w' k y _ Hf _|w0 w' _ _ _] HP.
  - destruct (stmt_word _ _ _ Hf HP) as [_ Hg]. unfold good_cmd in Hg. apply andb_true_iff in Hg. destruct Hg as [_ Hg]. apply negb_true_iff in Hg.
    intros E. rewrite E in Hg. discriminate.
  - cbn [c_parser user_command] in HP. apply mem_text_In in HP. discriminate.
Qed.
Lemma stmt_alpha nv line w x : resolves nv line w x -> In (c_parser x) stmt_parsers -> exists r u, w = r :: u /\ isalpha r = true.
Proof.
  intros [w' k y Hw Hf _|w0 w' _ _ _] HP.
  - destruct (stmt_word _ _ _ Hf HP) as [Hg _].
    assert (G : exists r u, k = r :: u /\ isalpha r = true).
    { destruct k as [|r u]; [discriminate|]. exists r, u. split; auto. cbn [good_word] in Hg. repeat (apply andb_true_iff in Hg; destruct Hg as [Hg ?]).
      match goal with H : forallb isalpha _ = true |- _ => cbn [forallb] in H; apply andb_true_iff in H; tauto end. }
    destruct Hw; auto. do 2 eexists. split; reflexivity.
  - cbn [c_parser user_command] in HP. apply mem_text_In in HP. discriminate.
Qed.
Lemma no_hash l t : lead l -> starts_with (fun r => r =? C "#") t = false -> ~ begins (T "#!") (l ++ t).
Proof.
  intros Hl H [u E]. destruct l as [|y l].
  - cbn [app] in E. subst t. discriminate.
  - unfold lead in Hl. cbn [forallb] in Hl. injection E as -> _. discriminate.
Qed.
Lemma hash_class r : isalpha r || isdigit r || iswhite r || one_of (92 :: T ".$'/?&+-%*;,:") r = true -> (r =? C "#") = false.
Proof. unfold one_of, isalpha, isdigit, iswhite, isupper, islower, between. cbn. lia. Qed.

Lemma head_step_full nv rest a x tl nm bang w l c c0 d k fr ch : lead l -> spells l c c0 -> In (c_parser x) stmt_parsers -> ae_cmd a = Some x -> placed_head a ->
  (forall g u, gap g -> (rest <> [] -> g = []) -> (rest = [] -> head_not (fun r => isalpha r || (r =? C "!")) (g ++ u) /\ head_not iswhite u) ->
     head_line nv x (ast_head a) tl nm bang (w ++ g) [] (rest ++ u)) ->
  spells (tl ++ nm ++ bang ++ w) c0 d -> spells rest d k -> (rest = [] -> ch_in no_more (peek k) = false) -> cache_ok nv ch -> wf c ->
  exists e y line cmdc arg ch', c_parser y = c_parser x /\ ae_cmd a = Some y /\ ea_cmd e = Some y /\ same_head e a /\ cache_ok nv ch' /\ is_eof c = false /\
    parse_one_cmd nv (mkSt c fr ch) = let* st2 := dispatch (mkEc e line cmdc arg y) (mkSt (skip_white d) fr ch') in parse_trail st2.
Proof.
  intros Hl Sl HP Hx Hpl Hall Sh Sr Hr Hch Wf.
  destruct (rest_exists k) as [tk_ Rk].
  assert (G : exists g u, tk_ = g ++ u /\ gap g /\ (rest <> [] -> g = []) /\ (rest = [] -> head_not (fun r => isalpha r || (r =? C "!")) (g ++ u) /\ head_not iswhite u)).
  { destruct rest as [|r0 rest].
    - destruct (read_while iswhite k) as [g k'] eqn:E. destruct (rest_exists k') as [u Ru].
      destruct (read_longest iswhite k g k' u E Ru) as [_ [L1 L2]]. pose proof (read_while_spells _ _ _ _ E) as [S1 _].
      assert (Eg : tk_ = g ++ u) by (apply (rest_unique k); [exact Rk|eapply rest_app; eauto]).
      exists g, u. split; [auto|]. split; [exact L1|]. split; [congruence|]. intros _. split.
      + rewrite <- Eg. specialize (Hr eq_refl). pose proof (peek1_rest _ _ Rk) as Hp. destruct tk_ as [|y tk_]; [exact I|]. cbn [head_not].
        destruct k as [|[|z] ? ?]; try discriminate. cbn in Hp. injection Hp as ->. exact Hr.
      + destruct u as [|y u]; [exact I|]. exact L2.
    - exists [], tk_. split; [reflexivity|]. split; [reflexivity|]. split; [auto|]. discriminate. }
  destruct G as [g [u [Eg [Hg [Hg1 Hg2]]]]]. specialize (Hall g u Hg Hg1 Hg2). destruct Hall as [HT Hres Hdig Hfirst].
  assert (Hne : c_name x <> T "!") by (eapply stmt_not_bang; eauto).
  destruct (stmt_alpha _ _ _ _ Hres HP) as [r1 [nm' [Enm Ha1]]].
  assert (Er : rest ++ tk_ = g ++ rest ++ u).
  { destruct rest as [|y rest]; [exact Eg|]. rewrite Hg1 in * by discriminate. cbn [app] in *. congruence. }
  assert (Rc : rest_of c (l ++ tl ++ nm ++ bang ++ (w ++ g) ++ [] ++ rest ++ u)).
  { eapply rest_app; [exact Sl|]. replace (tl ++ nm ++ bang ++ (w ++ g) ++ [] ++ rest ++ u) with ((tl ++ nm ++ bang ++ w) ++ rest ++ tk_).
    - eapply rest_app; [exact Sh|]. eapply rest_app; eauto.
    - rewrite Er, <- !app_assoc. reflexivity. }
  assert (Hbl : starts_with blank_colon (tl ++ nm ++ bang ++ (w ++ g) ++ [] ++ rest ++ u) = false).
  { rewrite app_assoc. destruct (tl ++ nm) as [|y z] eqn:Ey; [subst nm; destruct tl; discriminate|]. exact Hfirst. }
  assert (Hhash : ~ begins (T "#!") (l ++ tl ++ nm ++ bang ++ (w ++ g) ++ [] ++ rest ++ u)).
  { apply no_hash; auto. eapply lead_first; [exact hash_class|apply (ht_lead _ _ _ _ _ _ _ _ _ HT)|]. rewrite Enm. cbn [app starts_with]. apply (alpha_not r1 (C "#")); auto. }
  destruct (head_back nv x (ast_head a) l tl nm bang (w ++ g) [] (rest ++ u) c fr ch Hl HT Hres Hdig Rc Wf Hch Hbl Hhash)
    as [a1 [b [d1 [k1 [e [ch' [S1 [S2 [S3 [S4 [R4 [He [K1 [K2 [K3 [K4 [K5 [K6 K7]]]]]]]]]]]]]]]]]].
  apply spells_nil in S4. subst k1.
  assert (Ed : skip_white d = d1).
  { assert (Sd : spells g d d1).
    { assert (c0 = a1) by (eapply spells_fun; eauto). subst a1.
      assert (S5 : spells ((tl ++ nm ++ bang ++ w) ++ g) c0 d1).
      { replace ((tl ++ nm ++ bang ++ w) ++ g) with (tl ++ nm ++ bang ++ w ++ g) by (rewrite <- !app_assoc; reflexivity). eapply spells_app; eauto. }
      apply spells_split in S5. destruct S5 as [m [S5 S6]]. assert (m = d) by (eapply spells_fun; eauto). subst m. exact S6. }
    rewrite (skip_gap2 g d d1 Hg Sd). apply skip_not.
    destruct (ht_args _ _ _ _ _ _ _ _ _ HT) as [_ Ha]. specialize (Ha Hne). cbn [app] in Ha. pose proof (peek1_rest _ _ R4) as Hp.
    destruct (rest ++ u) as [|y z]; destruct d1 as [|[|q] ? ?]; try discriminate; try reflexivity. cbn in Hp. injection Hp as ->. exact Ha. }
  rewrite Ed. exists e, x, a1, b, d1, ch'. split; [reflexivity|]. split; [auto|]. split; [auto|]. split.
  { apply (head_same e a x); auto; congruence. }
  split; [auto|]. split; auto.
Qed.

Lemma head_step nv P rest a h l c c0 d k fr ch : lead l -> spells l c c0 -> command nv P rest a h -> In P stmt_parsers -> spells h c0 d -> spells rest d k ->
  (rest = [] -> ch_in no_more (peek k) = false) -> cache_ok nv ch -> wf c ->
  exists e x line cmdc arg ch', c_parser x = P /\ ae_cmd a = Some x /\ ea_cmd e = Some x /\ same_head e a /\ cache_ok nv ch' /\ is_eof c = false /\
    parse_one_cmd nv (mkSt c fr ch) = let* st2 := dispatch (mkEc e line cmdc arg x) (mkSt (skip_white d) fr ch') in parse_trail st2.
Proof.
  intros Hl Sl Hcmd HP Sh Sr Hr Hch Wf.
  assert (Hmain : forall y x (force : bool) w p q r, first_match nv y x -> c_parser x = P -> gap w -> (force = true -> flag (T "BANG") x = true) ->
      (force = false -> w = [] -> head_not (fun r => isalpha r || (r =? C "!")) rest) -> h = y ++ (if force then T "!" else []) ++ w ->
      a = mkAEa force [] 0 false 0 0 0 [] [] [] (Some p) (Some q) (Some r) (Some x) [] [] ->
      exists e x line cmdc arg ch', c_parser x = P /\ ae_cmd a = Some x /\ ea_cmd e = Some x /\ same_head e a /\ cache_ok nv ch' /\ is_eof c = false /\
        parse_one_cmd nv (mkSt c fr ch) = let* st2 := dispatch (mkEc e line cmdc arg x) (mkSt (skip_white d) fr ch') in parse_trail st2).
  2: { inversion Hcmd as [y x w p q r H1 H2 H3 H4|y x w p q r H1 H2 H3 H4|x a' tl nm bang w H1 H2 H3 H4 E1 E2]; subst.
       - apply (Hmain y x false w p q r); auto. discriminate.
       - apply (Hmain y x true w p q r); auto. discriminate.
       - eapply head_step_full; eauto. }
  intros y x force w p q r Hf Hx Hw Hb Hnb -> ->. rewrite <- Hx in HP. clear Hcmd.
  destruct (stmt_word _ _ _ Hf HP) as [Hg Hgx].
  apply spells_split in Sh. destruct Sh as [c1 [Sy Sh]]. apply spells_split in Sh. destruct Sh as [c2 [Sb Sw]].
  assert (Hc1 : ch_in isalpha (peek c1) = false /\ o_is (peek1 c1) (C "!") = force).
  { destruct force.
    - apply spells_head in Sb. destruct Sb as [? [? [-> _]]]. split; reflexivity.
    - apply spells_nil in Sb. subst c2. destruct w as [|r0 w].
      + apply spells_nil in Sw. subst d. specialize (Hnb eq_refl eq_refl). assert (K : ch_in no_more (peek c1) = false).
        { destruct rest as [|r0 rest]; [apply spells_nil in Sr; subst k; auto|]. apply spells_head in Sr. destruct Sr as [? [? [-> _]]]. exact Hnb. }
        clear - K. destruct c1 as [|[|z] ? ?]; try (split; reflexivity). cbn in *. unfold no_more in K. apply orb_false_iff in K. exact K.
      + apply spells_head in Sw. destruct Sw as [? [? [-> _]]]. unfold gap in Hw. cbn [forallb] in Hw. apply andb_true_iff in Hw. destruct Hw as [Hw _]. cbn [peek ch_of_cell ch_in peek1 o_is].
        split; [apply white_not_alpha; auto|]. unfold iswhite in Hw. cbn in *. clear - Hw. lia. }
  destruct Hc1 as [Hc1 Hbang].
  destruct (find_stmt nv y x c0 c1 fr ch Hf HP Sy Hc1 Hch) as [ch' [Hfind Hch']].
  assert (Hgw := Hg). destruct y as [|r0 y]; [discriminate|]. cbn [good_word] in Hg.
  apply andb_true_iff in Hg. destruct Hg as [Hg Hdel]. apply andb_true_iff in Hg. destruct Hg as [Hg Hmod].
  apply andb_true_iff in Hg. destruct Hg as [Hg Hal]. apply andb_true_iff in Hg. destruct Hg as [Hksp Hlow].
  pose proof Sy as X. apply spells_head in X. destruct X as [p0 [t0 [E0 _]]].
  assert (Ha0 : isalpha r0 = true) by (cbn [forallb] in Hal; apply andb_true_iff in Hal; tauto).
  assert (Hsk : skip_white_and_colon c0 = c0).
  { apply skip_not. subst c0. cbn [peek ch_of_cell ch_in]. rewrite (alpha_white _ Ha0), (alpha_not _ (C ":") Ha0) by reflexivity. reflexivity. }
  assert (Hskc : skip_white_and_colon c = c0) by (rewrite (skip_lead l c c0 Hl Sl); exact Hsk).
  assert (Hpk : peek1 c0 = Some r0) by (subst c0; reflexivity).
  set (c3 := skip_white d).
  set (e := ea_set_argpos (getpos c3) (ea_set_cmd x force (ea_set_cmdpos (getpos c0) (ea_set_range [] (ea_set_mods [] (ea_set_line (getpos c0) ea0)))))).
  exists e, x, c0, c0, c3, ch'. split; [auto|]. split; [reflexivity|]. split; [reflexivity|]. split; [reflexivity|]. split; [auto|]. split.
  { destruct l; [apply spells_nil in Sl; subst; reflexivity|]. apply spells_head in Sl. destruct Sl as [? [? [-> _]]]. reflexivity. }
  unfold parse_one_cmd. cbn [cur].
  rewrite (hash_lead l c c0 r0 Hl Sl) by (try (subst c0; reflexivity); intros ->; discriminate Ha0).
  rewrite Hskc. rewrite Hpk, (alpha_not r0 (C """")) by auto. unfold parse_command_modifiers.
  rewrite (modifiers_none (clen c0) (r0 :: y) c0 c1); auto; [|split; [discriminate|auto]|destruct (find_modifier modifier_table (r0 :: y)); [discriminate|reflexivity]].
  cbn [bind]. assert (Hrange : parse_range c0 = Ok ([], c0)) by (subst c0; apply letter_range; auto). rewrite Hrange. cbn [bind].
  match goal with |- bind ?a _ = bind ?b _ => assert (E : a = b); [|rewrite E; reflexivity] end.
  unfold parse_command. unfold with_cur. cbn [cur ctx cache]. rewrite Hsk, Hpk, (alpha_not r0 (C """")) by auto. rewrite Hfind. cbn [cur ctx cache].
  unfold good_cmd in Hgx. repeat (apply andb_true_iff in Hgx; destruct Hgx as [Hgx ?Hg]). apply negb_true_iff in Hgx, Hg0, Hg1, Hg.
  cbn [mem_text existsb] in Hg. repeat (apply orb_false_iff in Hg; destruct Hg as [?Hn Hg]).
  rewrite Hbang, Hn3, Hn4, Hn5. cbn [negb]. rewrite !andb_true_r.
  set (c2' := if force then snd (getn 1 c1) else c1).
  assert (Hc2 : c2' = c2).
  { unfold c2'. destruct force; [|apply spells_nil in Sb; auto]. pose proof (getn_exact 1 (T "!") c1 c2 Sb eq_refl) as G. rewrite G. reflexivity. }
  rewrite Hc2. rewrite Hn2. cbn [negb]. rewrite (skip_gap2 w c2 d Hw Sw). fold c3.
  replace (negb (has_flag (T "BANG") x) && force && negb (has_flag (T "USERCMD") x)) with false.
  2: { destruct force; [|rewrite andb_false_r; reflexivity]. unfold flag in Hb. unfold has_flag. rewrite (Hb eq_refl). reflexivity. }
  rewrite Hgx. cbn [bind]. unfold write_args. rewrite Hn, Hn0. cbn [orb bind]. unfold read_args. rewrite Hn1. fold e.
  replace (shift_args (c_name x) e c3) with (e, c3).
  2: { unfold shift_args. destruct (c_name x) as [|z [|? ?]]; auto. cbn [text_eqb] in Hn6, Hn7. rewrite andb_true_r in Hn6, Hn7. 
       destruct ((z =? C "<") || (z =? C ">")) eqn:Z; auto. exfalso. cbn in *. clear - Z Hn6 Hn7. lia. }
  rewrite Hg1. cbn [andb]. reflexivity.
Qed.

(** An expression does not start with two angle brackets. *)
Definition angle (s : text) : Prop := forall t, s = C "<" :: t -> exists b u, t = b :: u /\ b <> C "<".
Lemma angle_app s s' : good_head s -> angle s -> angle (s ++ s').
Proof.
  intros [r [w [-> _]]] H t E. cbn [app] in E. injection E as -> <-. destruct (H w eq_refl) as [b [u [-> Hb]]]. exists b, (u ++ s'). auto.
Qed.
Lemma angle_not r w : r <> C "<" -> angle (r :: w).
Proof. intros H t E. congruence. Qed.
Lemma angle_sid s s' : is_sid s -> angle (s ++ s').
Proof.
  intros H. pose proof (sid_head _ H) as [b [w [-> K]]]. intros t E. cbn [app] in E. injection E as <-. exists b, (w ++ s'). split; auto.
  intros ->. cbn in K. repeat match goal with H : _ /\ _ |- _ => destruct H end; discriminate.
Qed.
Lemma digits_angle s s' : some_of isdigit s -> angle (s ++ s').
Proof.
  intros [H1 H2]. destruct s as [|r s]; [congruence|]. cbn [app]. apply angle_not. cbn [forallb] in H2. intros ->. discriminate.
Qed.
Lemma written_angle e l n s : written e l n s -> angle s.
Proof.
  induction 1; auto; try (apply angle_app; [eapply written_head; eassumption|assumption]).
  - unfold prefix_ops in *. cbn [In] in *.
    repeat match goal with H : _ \/ _ |- _ => destruct H as [H|H] | H : (_, _) = (_, _) |- _ => injection H as <- <- end;
      try contradiction; apply angle_not; discriminate.
  - destruct k; cbn [lit_text] in *; try contradiction.
    + match goal with H : number_text _ |- _ => destruct H as [s Hs|a b Ha Hb|a b ex sg x Ha Hb He Hsg Hx|x s Hx Hs|x s Hx Hs] end;
        try (apply digits_angle; auto); try (apply angle_not; discriminate).
      rewrite <- (app_nil_r s). apply digits_angle; auto.
    + destruct H as [z [b [_ [_ [_ [_ ->]]]]]]. apply angle_not; discriminate.
    + destruct H as [sc [w [_ [_ ->]]]]. apply angle_not; discriminate.
    + destruct H as [w [_ ->]]. apply angle_not; discriminate.
    + destruct H as [w [_ ->]]. apply angle_not; discriminate.
    + destruct H as [[b [_ ->]]|[b [_ ->]]]; apply angle_not; discriminate.
  - apply angle_not; discriminate.
  - apply angle_not; discriminate.
  - destruct H as [[r [w [-> [Hr _]]]]|Hs].
    + apply angle_not. intros ->. discriminate.
    + rewrite <- (app_nil_r s). apply angle_sid; auto.
  - destruct lit; apply angle_not; discriminate.
  - apply angle_not; discriminate.
  - cbn [app]. apply angle_not. intros ->. discriminate.
  - apply angle_sid; auto.
  - apply angle_not; discriminate.
Qed.

(** * The end of a command *)

Lemma trail_skip k k' fr ch : skip_white k = skip_white k' -> parse_trail (mkSt k fr ch) = parse_trail (mkSt k' fr ch).
Proof. intros H. unfold parse_trail, with_cur. cbn [cur ctx cache]. rewrite H. reflexivity. Qed.

Lemma white_no_more r : iswhite r = true -> no_more r = false.
Proof. unfold iswhite. intros H. apply orb_true_iff in H. destruct H as [H|H]; apply N.eqb_eq in H; subst; reflexivity. Qed.
Lemma ends_no_more e cm k : ends e cm k -> ch_in no_more (peek k) = false.
Proof. intros H. eapply ends_class; eauto using white_no_more. Qed.

Lemma dispatch_is P f k st : c_parser (ec_x k) = P -> assoc_text P parser_table = Some f -> dispatch k st = f k st.
Proof. intros <- H. unfold dispatch. rewrite H. reflexivity. Qed.

Lemma head_still s d k : good_head s -> spells s d k -> skip_white d = d.
Proof. intros H Sp. destruct (head_skip s [] d k H eq_refl Sp) as [c1 [r [E [S1 _]]]]. apply spells_nil in S1. congruence. Qed.

(** The open blocks allow what the place allows. *)
Definition allows (w : place) (fr : list frame) : Prop :=
  (pl_fun w = true -> existsb (fun x => is_function (f_kind x)) fr = true) /\
  (pl_loop w = true -> existsb (fun x => is_while (f_kind x)) fr || existsb (fun x => is_for (f_kind x)) fr = true) /\
  (pl_top w = false -> match fr with f :: _ => f_kind f <> FTop | [] => True end).

Lemma call_node v n : shows v n -> is_call n = true -> exists p f xs, v = VCall p f xs.
Proof.
  intros [n' [E [_ U]]] Hn. assert (Hn' : is_call n' = true).
  { unfold unplaced in U. destruct n; try discriminate. destruct n'; try discriminate. reflexivity. }
  destruct v; eauto; exfalso; cbn [new_ast] in E;
    repeat match type of E with
    | bind ?x _ = Ok _ => destruct x; cbn [bind] in E; try discriminate
    | match ?x with _ => _ end = Ok _ => destruct x; try discriminate
    | Ok _ = Ok _ => injection E as <-; discriminate
    end.
Qed.

Lemma peekn_exact n s c k : spells s c k -> length s = n -> peekn n c = s.
Proof. intros Sp H. unfold peekn. rewrite (getn_exact n s c k Sp H). reflexivity. Qed.

(** The operator of an assignment. *)
Lemma let_op op c d k w s : In op assign_ops -> spells op c d -> gap w -> spells (w ++ s) d k -> good_head s -> angle s ->
  let s1 := peekn 1 c in
  let s2 := (let s := peekn 2 c in if text_eqb s (T "..") || text_eqb s (T "=<") then peekn 3 c else s) in
  ends_excmds1 (peek1 c) = false /\ text_eqb s2 (T "=<<") = false /\
  ((op <> T "=" /\ s2 = op /\ is_assign_op s2 = true) \/ (op = T "=" /\ s1 = op /\ is_assign_op s2 = false)).
Proof.
  intros Hop Sp Hw Sk Hg Ha s1 s2. assert (Hh : exists r y, op = r :: y /\ ends_excmds1 (Some r) = false).
  { cbn [In assign_ops] in Hop. repeat (destruct Hop as [<-|Hop]; [do 2 eexists; split; reflexivity|]). contradiction. }
  split. { destruct Hh as [r [y [-> Hr]]]. apply spells_head in Sp. destruct Sp as [? [? [-> _]]]. exact Hr. }
  destruct (list_eq_dec N.eq_dec op (T "=")) as [->|Hne].
  - assert (H1 : s1 = T "=") by exact (peekn_exact 1 (T "=") c d Sp eq_refl).
    destruct Hg as [r [y [-> Hr]]].
    assert (H2 : exists x s', spells (x :: s') d k /\ (x = C "<" -> exists b u, s' = b :: u /\ b <> C "<")).
    { destruct w as [|z w].
      - exists r, y. split; auto. intros ->. apply (Ha y eq_refl).
      - exists z, (w ++ r :: y). split; auto. intros ->. discriminate Hw. }
    destruct H2 as [x [s' [Sx Hx]]]. pose proof Sx as Sx'. apply spells_head in Sx. destruct Sx as [q [t [-> Sx]]].
    assert (H3 : peekn 2 c = [C "="; x]).
    { apply (peekn_exact 2 [C "="; x] c t); auto. apply (Cursor.spells_app (T "=") [x] c (Cons (R x) q t) t); auto. cbn. auto. }
    assert (H4 : s2 = [C "="; x] \/ exists b, s2 = [C "="; x; b] /\ b <> C "<").
    { unfold s2. rewrite H3. destruct (text_eqb [C "="; x] (T "..") || text_eqb [C "="; x] (T "=<")) eqn:E; auto. right.
      assert (x = C "<"). { cbn in E. cbn. lia. } subst x. destruct (Hx eq_refl) as [b [u [-> Hb]]]. apply spells_head in Sx. destruct Sx as [q2 [t2 [-> Sx]]].
      exists b. split; auto. apply (peekn_exact 3 [C "="; C "<"; b] c t2); auto. apply (Cursor.spells_app (T "=") [C "<"; b] c _ t2 Sp). cbn. auto. }
    split; [|right; split; auto; split; auto].
    + destruct H4 as [->|[b [-> Hb]]]; cbn; [destruct (x =? 60); reflexivity|]. replace (b =? 60) with false by (cbn in Hb; lia). rewrite !andb_false_r. reflexivity.
    + destruct H4 as [->|[b [-> Hb]]]; reflexivity.
  - cbn [In assign_ops] in Hop. repeat (destruct Hop as [<-|Hop]; [
      first [ contradiction Hne; reflexivity | assert (H2 : s2 = T "..=") by (unfold s2; assert (E2 : peekn 2 c = T "..") by
                (apply spells_head in Sp; destruct Sp as [? [? [-> Sp]]]; apply spells_head in Sp; destruct Sp as [? [? [-> Sp]]]; reflexivity);
                rewrite E2; exact (peekn_exact 3 (T "..=") c d Sp eq_refl))
            | match goal with |- text_eqb s2 _ = false /\ ((?o <> _ /\ _) \/ _) => assert (H2 : s2 = o) by (unfold s2; rewrite (peekn_exact 2 o c d Sp eq_refl); reflexivity) end ];
      rewrite ?H2; try (split; [reflexivity|]; left; split; [discriminate|split; reflexivity]) |]).
    contradiction.
Qed.

Lemma lhs_head ok w next l ls r s : written_lhs ok w next l ls r s -> exists x y, s = x :: y /\ head_ok x = true /\ x <> C """".
Proof.
  intros H. inversion H as [n s' Hn Hok Hfo|ns r' s' Hns]; subst.
  - apply target_head in Hn. destruct Hn as [x [y [-> [H1 [H2 _]]]]]. eauto.
  - exists (C "["), s'. split; [reflexivity|]. split; [reflexivity|discriminate].
Qed.

(** * Commands on one line *)

(** What reading one command does: the statement [v] is added to the innermost block. *)
Definition line_read nv n c k f r ch : Prop :=
  exists v ch', is_eof c = false /\ parse_one_cmd nv (mkSt c (f :: r) ch) = parse_trail (mkSt k (add_body v f :: r) ch') /\
    shows_s v n /\ cache_ok nv ch'.

Lemma line_run nv P F rest a h n l c c0 d k f r ch : command nv P rest a h -> In P stmt_parsers -> assoc_text P parser_table = Some F ->
  lead l -> spells l c c0 -> spells h c0 d -> spells rest d k -> (rest = [] -> ch_in no_more (peek k) = false) -> cache_ok nv ch -> wf c ->
  (forall e x line cmdc arg ch', ae_cmd a = Some x -> ea_cmd e = Some x -> same_head e a ->
     exists v k', F (mkEc e line cmdc arg x) (mkSt (skip_white d) (f :: r) ch') = Ok (mkSt k' (add_body v f :: r) ch') /\ skip_white k' = skip_white k /\ shows_s v n) ->
  line_read nv n c k f r ch.
Proof.
  intros Hc HP HF Hl Sl Sh Sr Hr Hch Wf H.
  destruct (head_step nv P rest a h l c c0 d k (f :: r) ch Hl Sl Hc HP Sh Sr Hr Hch Wf) as [e [x [line [cmdc [arg [ch' [H1 [H2 [H3 [H4 [H5 [H6 H7]]]]]]]]]]]].
  destruct (H e x line cmdc arg ch' H2 H3 H4) as [v [k' [E [Hk Hs]]]]. exists v, ch'. split; auto. split; [|auto].
  rewrite H7, (dispatch_is P F) by auto. rewrite E. cbn [bind]. apply trail_skip. auto.
Qed.

Lemma echo_parser_in k : In (echo_parser k) stmt_parsers /\ assoc_text (echo_parser k) parser_table = Some (parse_cmd_echo k).
Proof. destruct k; (split; [apply mem_text_In|]; reflexivity). Qed.

Lemma good_nonempty s : good_head s -> s <> [].
Proof. intros [? [? [-> _]]]. discriminate. Qed.

Lemma ends_skip_nothing e cm k m : ends e cm k -> cm = false -> exprs_loop (S m) k = Ok ([], skip_white k).
Proof.
  intros H Hc. destruct (ends_skip _ _ _ H) as [H1 H2]. cbn [exprs_loop]. rewrite H1, (H2 Hc). reflexivity.
Qed.

Lemma read_line_cmd nv w e cm n s l c c0 k f r ch : line_cmd nv w e cm n s -> lead l -> spells l c c0 -> spells s c0 k -> wf c -> ends e cm k ->
  cache_ok nv ch -> allows w (f :: r) -> line_read nv n c k f r ch.
Proof.
  intros H Hl Sl Sp Wf0 He Hch Ha. assert (Wf : wf c0) by (eapply spells_wf; eauto). assert (Wk : wf k) by (eapply spells_wf; eauto).
  pose proof (ends_no_more _ _ _ He) as Hnm.
  inversion H as [e' kd a h x ns s' p Hc Hx Hs|kd a h x p Hc Hx|e' a h ns s' p Hc Hs|a h p Hc|e' a h fn q xs s' p Hc Hs Hq|e' a h n' s' p Hw Hc Hs|a h p Hw Hc
    |e' a h n' s' p Hc Hs|e' a h n' s' p Hc Hs|e' a h ll ls rr sl op w1 w2 n' s' p Hc Hop Hlh Hw1 Hw2 Hs|e' a h ll ls rr sl w1 w2 n' s' p Hc Hlh Hw1 Hw2 Hs
    |a h ns s' p Hc Hs|a h z d' w1 ns s' p Hc Hd' Hw1 Hs|a h z d' w1 ns s' p Hc Hd' Hw1 Hs|a h p Hw Hc|a h p Hw Hc|a h n' s' p Hc Hs Hns|a h s' p Hc Hh Hs]; subst.
  - (* echo *) apply spells_split in Sp. destruct Sp as [d [Sh Sr]]. pose proof (exprs_head _ _ _ Hs) as Hg. destruct (echo_parser_in kd) as [HP HF].
    apply (line_run nv _ _ _ _ _ _ _ _ _ _ _ _ _ _ Hc HP HF Hl Sl Sh Sr); auto.
    intros e0 x0 line cmdc arg ch' E1 E2 E3. rewrite (head_still s' d k Hg Sr).
    assert (Wd : wf d) by (eapply spells_wf; eauto).
    destruct (read_exprs e ns s' Hs [] d k (S (clen d)) eq_refl Sr Wd He (Nat.lt_succ_diag_r _)) as [[vs [Ev Sv]] _].
    assert (x0 = x) by congruence. subst x0.
    unfold parse_cmd_echo, parse_exprlist. cbn [cur]. rewrite Ev. cbn [bind]. do 2 eexists. split; [reflexivity|]. split; [apply skip_white_idem|]. apply ss_echo; auto.
  - (* echo, no argument *) destruct (echo_parser_in kd) as [HP HF].
    apply (line_run nv _ _ [] _ _ _ _ _ _ k k _ _ _ Hc HP HF Hl Sl Sp); auto; [reflexivity|].
    intros e0 x0 line cmdc arg ch' E1 E2 E3. assert (x0 = x) by congruence. subst x0.
    unfold parse_cmd_echo, parse_exprlist. cbn [cur]. cbn [exprs_loop]. rewrite skip_white_idem. destruct (ends_skip _ _ _ He) as [X1 X2]. rewrite X1, X2 by auto. cbn [bind negb andb].
    do 2 eexists. split; [reflexivity|]. split; [apply skip_white_idem|]. apply ss_echo; auto.
  - (* execute *) apply spells_split in Sp. destruct Sp as [d [Sh Sr]]. pose proof (exprs_head _ _ _ Hs) as Hg.
    refine (line_run nv _ parse_cmd_execute _ _ _ _ l c c0 d k f r ch Hc _ eq_refl Hl Sl Sh Sr (fun _ => Hnm) Hch Wf0 _); [apply mem_text_In; reflexivity|].
    intros e0 x0 line cmdc arg ch' E1 E2 E3. rewrite (head_still s' d k Hg Sr). assert (Wd : wf d) by (eapply spells_wf; eauto).
    destruct (read_exprs e ns s' Hs [] d k (S (clen d)) eq_refl Sr Wd He (Nat.lt_succ_diag_r _)) as [[vs [Ev Sv]] _].
    unfold parse_cmd_execute, parse_exprlist. cbn [cur]. rewrite Ev. cbn [bind]. do 2 eexists. split; [reflexivity|]. split; [apply skip_white_idem|]. apply ss_execute; auto.
  - (* execute, no argument *)
    refine (line_run nv _ parse_cmd_execute [] _ _ _ l c c0 k k f r ch Hc _ eq_refl Hl Sl Sp eq_refl (fun _ => Hnm) Hch Wf0 _); [apply mem_text_In; reflexivity|].
    intros e0 x0 line cmdc arg ch' E1 E2 E3.
    unfold parse_cmd_execute, parse_exprlist. cbn [cur]. cbn [exprs_loop]. rewrite skip_white_idem. destruct (ends_skip _ _ _ He) as [X1 X2]. rewrite X1, X2 by auto. cbn [bind negb andb].
    do 2 eexists. split; [reflexivity|]. split; [apply skip_white_idem|]. apply ss_execute; auto.
  - (* call *) apply spells_split in Sp. destruct Sp as [d [Sh Sr]]. pose proof (written_head _ _ _ _ Hs) as Hg.
    refine (line_run nv _ parse_cmd_call _ _ _ _ l c c0 d k f r ch Hc _ eq_refl Hl Sl Sh Sr (fun _ => Hnm) Hch Wf0 _); [apply mem_text_In; reflexivity|].
    intros e0 x0 line cmdc arg ch' E1 E2 E3. rewrite (head_still s' d k Hg Sr). assert (Wd : wf d) by (eapply spells_wf; eauto).
    destruct (read_expr e _ s' [] d k Hs eq_refl Sr Wd (ends_stop _ _ _ _ He Wk)) as [v [Ev Sv]].
    unfold parse_cmd_call. cbn [cur]. rewrite (head_still s' d k Hg Sr).
    replace (ends_excmds (peek d)) with false.
    2: { destruct Hg as [z [y [-> Hz]]]. apply spells_head in Sr. destruct Sr as [? [? [-> _]]]. cbn [peek ch_of_cell]. rewrite head_not_end by auto. cbn [head_not] in Hq. auto. }
    rewrite Ev. cbn [bind]. destruct (call_node _ _ Sv eq_refl) as [pp [ff [xx ->]]].
    do 2 eexists. split; [reflexivity|]. split; [reflexivity|]. apply ss_call; auto. apply call_kind; auto.
  - (* return *) apply spells_split in Sp. destruct Sp as [d [Sh Sr]]. pose proof (written_head _ _ _ _ Hs) as Hg.
    refine (line_run nv _ parse_cmd_return _ _ _ _ l c c0 d k f r ch Hc _ eq_refl Hl Sl Sh Sr (fun _ => Hnm) Hch Wf0 _); [apply mem_text_In; reflexivity|].
    intros e0 x0 line cmdc arg ch' E1 E2 E3. rewrite (head_still s' d k Hg Sr). assert (Wd : wf d) by (eapply spells_wf; eauto).
    destruct (read_expr e _ s' [] d k Hs eq_refl Sr Wd (ends_stop _ _ _ _ He Wk)) as [v [Ev Sv]].
    unfold parse_cmd_return, in_context. cbn [cur ctx]. rewrite (proj1 Ha Hw). cbn [negb]. rewrite (head_still s' d k Hg Sr).
    replace (ch_is (peek d) (C """") || negb (ends_excmds (peek d))) with true.
    2: { destruct Hg as [z [y [-> Hz]]]. apply spells_head in Sr. destruct Sr as [? [? [-> _]]]. cbn [peek ch_of_cell]. rewrite head_not_end by auto. cbn. destruct (z =? 34); reflexivity. }
    rewrite Ev. cbn [bind]. do 2 eexists. split; [reflexivity|]. split; [reflexivity|]. apply ss_return; auto.
  - (* return, no argument *)
    refine (line_run nv _ parse_cmd_return [] _ _ _ l c c0 k k f r ch Hc _ eq_refl Hl Sl Sp eq_refl (fun _ => Hnm) Hch Wf0 _); [apply mem_text_In; reflexivity|].
    intros e0 x0 line cmdc arg ch' E1 E2 E3.
    unfold parse_cmd_return, in_context. cbn [cur ctx]. rewrite (proj1 Ha Hw). cbn [negb]. rewrite skip_white_idem. destruct (ends_skip _ _ _ He) as [X1 X2]. rewrite X1, X2 by auto. cbn [orb negb].
    do 2 eexists. split; [reflexivity|]. split; [apply skip_white_idem|]. apply ss_return; auto. exact I.
  - (* throw *) apply spells_split in Sp. destruct Sp as [d [Sh Sr]]. pose proof (written_head _ _ _ _ Hs) as Hg.
    refine (line_run nv _ parse_cmd_throw _ _ _ _ l c c0 d k f r ch Hc _ eq_refl Hl Sl Sh Sr (fun _ => Hnm) Hch Wf0 _); [apply mem_text_In; reflexivity|].
    intros e0 x0 line cmdc arg ch' E1 E2 E3. rewrite (head_still s' d k Hg Sr). assert (Wd : wf d) by (eapply spells_wf; eauto).
    destruct (read_expr e _ s' [] d k Hs eq_refl Sr Wd (ends_stop _ _ _ _ He Wk)) as [v [Ev Sv]].
    unfold parse_cmd_throw. cbn [cur]. rewrite Ev. cbn [bind]. do 2 eexists. split; [reflexivity|]. split; [reflexivity|]. apply ss_throw; auto.
  - (* eval *) apply spells_split in Sp. destruct Sp as [d [Sh Sr]]. pose proof (written_head _ _ _ _ Hs) as Hg.
    refine (line_run nv _ parse_cmd_eval _ _ _ _ l c c0 d k f r ch Hc _ eq_refl Hl Sl Sh Sr (fun _ => Hnm) Hch Wf0 _); [apply mem_text_In; reflexivity|].
    intros e0 x0 line cmdc arg ch' E1 E2 E3. rewrite (head_still s' d k Hg Sr). assert (Wd : wf d) by (eapply spells_wf; eauto).
    destruct (read_expr e _ s' [] d k Hs eq_refl Sr Wd (ends_stop _ _ _ _ He Wk)) as [v [Ev Sv]].
    unfold parse_cmd_eval. cbn [cur]. rewrite Ev. cbn [bind]. do 2 eexists. split; [reflexivity|]. split; [reflexivity|]. apply ss_eval; auto.
  - (* let *) apply spells_split in Sp. destruct Sp as [d [Sh Sp]]. apply spells_split in Sp. destruct Sp as [d1 [S1 Sp]]. apply spells_split in Sp. destruct Sp as [d2 [S2 Sp]].
    apply spells_split in Sp. destruct Sp as [d3 [S3 Sp]]. pose proof (written_head _ _ _ _ Hs) as Hg.
    destruct (lhs_head _ _ _ _ _ _ _ Hlh) as [x1 [y1 [El [Hx1 Hx2]]]].
    assert (Wd : wf d) by (eapply spells_wf; eauto). assert (Wd1 : wf d1) by (eapply spells_wf; eauto).
    assert (Wd2 : wf d2) by (eapply spells_wf; eauto). assert (Wd3 : wf d3) by (eapply spells_wf; eauto).
    assert (Hgl : good_head sl) by (exists x1, y1; auto).
    destruct (head_step nv _ sl a h l c c0 d d1 (f :: r) ch Hl Sl Hc ltac:(apply mem_text_In; reflexivity) Sh S1 ltac:(intros ->; discriminate) Hch Wf0)
      as [e0 [x0 [line [cmdc [arg [ch' [H1 [H2 [H3 [H4 [H5 [H6 H7]]]]]]]]]]]].
    rewrite (dispatch_is (T "parse_cmd_let") parse_cmd_let (mkEc e0 line cmdc arg x0) _ H1 eq_refl) in H7. rewrite (head_still sl d d1 Hgl S1) in H7.
    destruct (read_lhs variable parse_lvalue w1 op ll ls rr sl d d1 d3) as [l' [ls' [r' [El' [Sl1 [Sl2 Sl3]]]]]]; auto.
    { intros nn ss cc kk Z1 Z2 Z3 Z4 Z5. exact (read_lvalue nn ss [] cc kk Z1 Z2 eq_refl Z3 Z4 Z5). }
    { right. right. auto. }
    { apply (Cursor.spells_app w1 op d1 d2 d3); auto. }
    destruct (let_op op d2 d3 k w2 s' Hop S3 Hw2 Sp Hg (written_angle _ _ _ _ Hs)) as [O1 [O2 O3]].
    assert (Hsk : skip_white d1 = d2).
    { apply (skip_gap w1); auto. cbn [In assign_ops] in Hop. clear - Hop S3.
      repeat (destruct Hop as [<-|Hop]; [apply spells_head in S3; destruct S3 as [? [? [-> _]]]; reflexivity|]). contradiction. }
    destruct (read_expr e n' s' w2 d3 k Hs Hw2 Sp Wd3 (ends_stop _ _ _ _ He Wk)) as [v [Ev Sv]].
    assert (Hrun : parse_cmd_let (mkEc e0 line cmdc arg x0) (mkSt d (f :: r) ch') = Ok (mkSt k (add_body (VLet (getpos cmdc) e0 op l' ls' r' (Some v)) f :: r) ch')).
    { unfold parse_cmd_let. cbn [cur]. rewrite (head_still sl d d1 Hgl S1).
      replace (ends_excmds (peek d)) with false.
      2: { subst sl. apply spells_head in S1. destruct S1 as [? [? [-> _]]]. cbn [peek ch_of_cell]. rewrite head_not_end by auto. clear - Hx2. cbn in *. lia. }
      rewrite El'. cbn [bind]. rewrite Hsk. set (s2 := let s0 := peekn 2 d2 in if text_eqb s0 (T "..") || text_eqb s0 (T "=<") then peekn 3 d2 else s0) in *.
      rewrite O1, O2. destruct O3 as [[Q1 [Q2 Q3]]|[Q1 [Q2 Q3]]]; rewrite Q3; cbn [negb andb orb].
      - rewrite Q2, (getn_exact (length op) op d2 d3 S3 eq_refl). cbn [snd]. rewrite Ev. cbn [bind]. reflexivity.
      - rewrite Q2, Q1. change (text_eqb (T "=") (T "=")) with true. rewrite Q1 in S3. cbn [negb andb orb]. rewrite (getn_exact 1 (T "=") d2 d3 S3 eq_refl). cbn [snd]. rewrite Ev. cbn [bind]. reflexivity. }
    exists (VLet (getpos cmdc) e0 op l' ls' r' (Some v)), ch'. split; auto. split; [rewrite H7, Hrun; reflexivity|]. split; auto. apply ss_let; auto.
  - (* const *) apply spells_split in Sp. destruct Sp as [d [Sh Sp]]. apply spells_split in Sp. destruct Sp as [d1 [S1 Sp]]. apply spells_split in Sp. destruct Sp as [d2 [S2 Sp]].
    apply spells_split in Sp. destruct Sp as [d3 [S3 Sp]]. pose proof (written_head _ _ _ _ Hs) as Hg.
    destruct (lhs_head _ _ _ _ _ _ _ Hlh) as [x1 [y1 [El [Hx1 Hx2]]]].
    assert (Wd : wf d) by (eapply spells_wf; eauto). assert (Wd1 : wf d1) by (eapply spells_wf; eauto).
    assert (Wd2 : wf d2) by (eapply spells_wf; eauto). assert (Wd3 : wf d3) by (eapply spells_wf; eauto).
    assert (Hgl : good_head sl) by (exists x1, y1; auto).
    destruct (head_step nv _ sl a h l c c0 d d1 (f :: r) ch Hl Sl Hc ltac:(apply mem_text_In; reflexivity) Sh S1 ltac:(intros ->; discriminate) Hch Wf0)
      as [e0 [x0 [line [cmdc [arg [ch' [H1 [H2 [H3 [H4 [H5 [H6 H7]]]]]]]]]]]].
    rewrite (dispatch_is (T "parse_cmd_const") parse_cmd_const (mkEc e0 line cmdc arg x0) _ H1 eq_refl) in H7. rewrite (head_still sl d d1 Hgl S1) in H7.
    destruct (read_lhs const_variable parse_constlvalue w1 (T "=") ll ls rr sl d d1 d3) as [l' [ls' [r' [El' [Sl1 [Sl2 Sl3]]]]]]; auto.
    { intros nn ss cc kk Z1 Z2 Z3 Z4 Z5. exact (read_constlvalue nn ss [] cc kk Z1 Z2 eq_refl Z3 Z4 Z5). }
    { right. right. apply mem_text_In. reflexivity. }
    { apply (Cursor.spells_app w1 (T "=") d1 d2 d3); auto. }
    assert (Hsk : skip_white d1 = d2).
    { apply (skip_gap w1); auto. apply spells_head in S3; destruct S3 as [? [? [-> _]]]; reflexivity. }
    destruct (read_expr e n' s' w2 d3 k Hs Hw2 Sp Wd3 (ends_stop _ _ _ _ He Wk)) as [v [Ev Sv]].
    assert (Hrun : parse_cmd_const (mkEc e0 line cmdc arg x0) (mkSt d (f :: r) ch') = Ok (mkSt k (add_body (VConst (getpos cmdc) e0 (T "=") l' ls' r' (Some v)) f :: r) ch')).
    { unfold parse_cmd_const. cbn [cur]. rewrite (head_still sl d d1 Hgl S1).
      replace (ends_excmds (peek d)) with false.
      2: { subst sl. apply spells_head in S1. destruct S1 as [? [? [-> _]]]. cbn [peek ch_of_cell]. rewrite head_not_end by auto. clear - Hx2. cbn in *. lia. }
      rewrite El'. cbn [bind]. rewrite Hsk. rewrite (getn_exact 1 (T "=") d2 d3 S3 eq_refl). apply spells_head in S3; destruct S3 as [? [? [-> S3]]]. cbn [peek1 snd]. 
      replace (ends_excmds1 (Some (C "=")) || negb (o_is (Some (C "=")) (C "="))) with false by reflexivity. rewrite Ev. cbn [bind]. reflexivity. }
    exists (VConst (getpos cmdc) e0 (T "=") l' ls' r' (Some v)), ch'. split; auto. split; [rewrite H7, Hrun; reflexivity|]. split; auto. apply ss_const; auto.
  - (* unlet *) apply spells_split in Sp. destruct Sp as [d [Sh Sr]]. pose proof (head_good _ (vars_head _ _ Hs)) as Hg.
    refine (line_run nv _ parse_cmd_unlet _ _ _ _ l c c0 d k f r ch Hc _ eq_refl Hl Sl Sh Sr (fun _ => Hnm) Hch Wf0 _); [apply mem_text_In; reflexivity|].
    intros e0 x0 line cmdc arg ch' E1 E2 E3. rewrite (head_still s' d k Hg Sr). assert (Wd : wf d) by (eapply spells_wf; eauto).
    destruct (read_vars _ ns s' [] d k Hs eq_refl Sr Wd He) as [vs [Ev Sv]].
    unfold parse_cmd_unlet. cbn [cur]. rewrite Ev. cbn [bind]. do 2 eexists. split; [reflexivity|]. split; [apply skip_white_idem|]. apply ss_unlet; auto.
  - (* lockvar *) apply spells_split in Sp. destruct Sp as [d [Sh Sr]].
    refine (line_run nv _ (parse_cmd_lock VLockvar) _ _ _ _ l c c0 d k f r ch Hc _ eq_refl Hl Sl Sh Sr (fun _ => Hnm) Hch Wf0 _); [apply mem_text_In; reflexivity|].
    intros e0 x0 line cmdc arg ch' E1 E2 E3. assert (Wd : wf d) by (eapply spells_wf; eauto).
    destruct (read_depth z d' w1 s' d k Hd' Hw1 (vars_head _ _ Hs) Sr) as [c1 [w' [Ed [Hw' Sv]]]].
    assert (Wc1 : wf c1).
    { revert Ed. clear - Wd. destruct (blank_skip d) as [w [Sw _]]. intros Ed. assert (Wq : wf (skip_white d)) by (eapply spells_wf; eauto).
      destruct (o_in isdigit (peek1 (skip_white d))); [|congruence]. unfold read_digit in Ed. destruct (read_while isdigit (skip_white d)) as [x c'] eqn:R. apply read_while_spells in R. destruct R as [R _].
      apply bind_ok in Ed. destruct Ed as [z' [_ Ed]]. injection Ed as _ <-. eapply spells_wf; eauto. }
    destruct (read_vars _ ns s' w' c1 k Hs Hw' Sv Wc1 He) as [vs [Ev Svs]].
    unfold parse_cmd_lock. cbn [cur]. rewrite skip_white_idem, Ed. cbn [bind]. rewrite Ev. cbn [bind]. do 2 eexists. split; [reflexivity|]. split; [apply skip_white_idem|]. apply ss_lockvar; auto.
  - (* unlockvar *) apply spells_split in Sp. destruct Sp as [d [Sh Sr]].
    refine (line_run nv _ (parse_cmd_lock VUnlockvar) _ _ _ _ l c c0 d k f r ch Hc _ eq_refl Hl Sl Sh Sr (fun _ => Hnm) Hch Wf0 _); [apply mem_text_In; reflexivity|].
    intros e0 x0 line cmdc arg ch' E1 E2 E3. assert (Wd : wf d) by (eapply spells_wf; eauto).
    destruct (read_depth z d' w1 s' d k Hd' Hw1 (vars_head _ _ Hs) Sr) as [c1 [w' [Ed [Hw' Sv]]]].
    assert (Wc1 : wf c1).
    { revert Ed. clear - Wd. destruct (blank_skip d) as [w [Sw _]]. intros Ed. assert (Wq : wf (skip_white d)) by (eapply spells_wf; eauto).
      destruct (o_in isdigit (peek1 (skip_white d))); [|congruence]. unfold read_digit in Ed. destruct (read_while isdigit (skip_white d)) as [x c'] eqn:R. apply read_while_spells in R. destruct R as [R _].
      apply bind_ok in Ed. destruct Ed as [z' [_ Ed]]. injection Ed as _ <-. eapply spells_wf; eauto. }
    destruct (read_vars _ ns s' w' c1 k Hs Hw' Sv Wc1 He) as [vs [Ev Svs]].
    unfold parse_cmd_lock. cbn [cur]. rewrite skip_white_idem, Ed. cbn [bind]. rewrite Ev. cbn [bind]. do 2 eexists. split; [reflexivity|]. split; [apply skip_white_idem|]. apply ss_unlockvar; auto.
  - (* break *)
    refine (line_run nv _ parse_cmd_break [] _ _ _ l c c0 k k f r ch Hc _ eq_refl Hl Sl Sp eq_refl (fun _ => Hnm) Hch Wf0 _); [apply mem_text_In; reflexivity|].
    intros e0 x0 line cmdc arg ch' E1 E2 E3. unfold parse_cmd_break, in_context. cbn [cur ctx]. rewrite <- negb_orb, (proj1 (proj2 Ha) Hw). cbn [negb].
    do 2 eexists. split; [reflexivity|]. split; [apply skip_white_idem|]. apply ss_break; auto.
  - (* continue *)
    refine (line_run nv _ parse_cmd_continue [] _ _ _ l c c0 k k f r ch Hc _ eq_refl Hl Sl Sp eq_refl (fun _ => Hnm) Hch Wf0 _); [apply mem_text_In; reflexivity|].
    intros e0 x0 line cmdc arg ch' E1 E2 E3. unfold parse_cmd_continue, in_context. cbn [cur ctx]. rewrite <- negb_orb, (proj1 (proj2 Ha) Hw). cbn [negb].
    do 2 eexists. split; [reflexivity|]. split; [apply skip_white_idem|]. apply ss_continue; auto.
  - (* delfunction *) apply spells_split in Sp. destruct Sp as [d [Sh Sr]]. pose proof (head_good _ (target_head _ _ Hs)) as Hg.
    refine (line_run nv _ parse_cmd_delfunction _ _ _ _ l c c0 d k f r ch Hc _ eq_refl Hl Sl Sh Sr (fun _ => Hnm) Hch Wf0 _); [apply mem_text_In; reflexivity|].
    intros e0 x0 line cmdc arg ch' E1 E2 E3. rewrite (head_still s' d k Hg Sr). assert (Wd : wf d) by (eapply spells_wf; eauto).
    destruct (read_lvalue_func n' s' [] d k Hs Hns eq_refl Sr Wd (ends_lstop _ _ _ _ He Wk)) as [v [Ev Sv]].
    unfold parse_cmd_delfunction. cbn [cur]. rewrite Ev. cbn [bind]. do 2 eexists. split; [reflexivity|]. split; [reflexivity|]. apply ss_delfunction; auto.
  - (* echohl *) apply spells_split in Sp. destruct Sp as [d [Sh Sr]].
    refine (line_run nv _ parse_cmd_echohl _ _ _ _ l c c0 d k f r ch Hc _ eq_refl Hl Sl Sh Sr (fun _ => Hnm) Hch Wf0 _); [apply mem_text_In; reflexivity|].
    intros e0 x0 line cmdc arg ch' E1 E2 E3.
    assert (Hk : exists p t, k = Cons EOL p t).
    { destruct He as [w0 [d0 [Hw0 [Sp0 [He0 [[p0 [t0 ->]]|[[E _]|[E _]]]]]]]]; try discriminate. rewrite (He0 eq_refl) in Sp0. apply spells_nil in Sp0. eauto. }
    assert (Hsk : skip_white d = d).
    { apply skip_not. destruct s' as [|z s']; [apply spells_nil in Sr; subst d; destruct Hk as [? [? ->]]; reflexivity|].
      apply spells_head in Sr. destruct Sr as [? [? [-> _]]]. exact Hh. }
    rewrite Hsk. unfold parse_cmd_echohl. cbn [cur].
    rewrite (read_while_exact _ s' d k Sr).
    2: { rewrite <- Hs. clear. induction s' as [|z s IH]; cbn [forallb]; auto. rewrite IH. f_equal. unfold ends_excmds. cbn. destruct (z =? 124), (z =? 34); reflexivity. }
    2: { destruct Hk as [? [? ->]]. reflexivity. }
    do 2 eexists. split; [reflexivity|]. split; [reflexivity|]. apply ss_echohl; auto.
Qed.
