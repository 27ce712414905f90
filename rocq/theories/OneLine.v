(** What the parser does on the first line of a file. *)
From Coq Require Import Lia ZifyBool ZifyNat ZifyN.
From Verif Require Import Base Utf8 CharClass Reader Vnode Token Ast CmdTable Cursor Grammar TokSafe ExprSafe
  ExprParser CmdParser Export ExportSafe Script CmdBase CmdArgs HeadProof CmdPieces CmdOpen CmdSafe ScriptExport Api ApiExpr ApiFile
  Places PlacesProof LinesProof ReaderFacts Nodes CmdSpec.

Lemma put_first_spells : forall t i ln col off k, spells t (put_first t i ln col off k) (k (i + N.of_nat (length t))).
Proof.
  induction t as [|r t IH]; intros i ln col off k; cbn [put_first spells length].
  - f_equal. lia.
  - split; auto. replace (i + N.of_nat (S (length t))) with (i + 1 + N.of_nat (length t)) by lia. apply IH.
Qed.

Lemma first_line bs b l ls : seen_lines bs (l :: ls) -> match ls with t :: _ => ~ is_continuation t | [] => True end ->
  exists p t, spells l (open_source (mkSource bs b)) (Cons EOL p t) /\
    (l <> [] -> getpos (open_source (mkSource bs b)) = mkPos 0 1 1 0) /\
    (ls = [] -> exists q, t = Eof q).
Proof.
  intros Hs Hc. rewrite (seen_open _ _ b Hs). cbn [new_reader].
  pose proof (put_first_spells l 0 1 0 0 (fun i => build_more ls i 1 (blen l) (blen l))) as H.
  set (c := put_first _ _ _ _ _ _) in *. cbn beta in H.
  assert (G : l <> [] -> getpos c = mkPos 0 1 1 0).
  { subst c. destruct l; [congruence|]. reflexivity. }
  clearbody c. destruct ls as [|m ls]; cbn [build_more] in H.
  - do 2 eexists. split; [exact H|]. split; [auto|]. eauto.
  - destruct (re_continuation m) eqn:E. { apply continuation_iff in E. contradiction. }
    do 2 eexists. split; [exact H|]. split; [auto|]. discriminate.
Qed.

Lemma no_modifier n c line : rest_of c line -> starts_with isalpha line = true -> ~ modifier_follows line ->
  modifiers_loop (S n) c = Ok ([], c).
Proof.
  intros Hr Ha Hm. cbn [modifiers_loop]. rewrite (o_in_rest _ _ _ Hr).
  assert (E : starts_with isdigit line = false).
  { destruct line as [|r t]; auto. cbn in *. destruct (isdigit r) eqn:X; auto. apply digit_not_alpha in X. congruence. }
  rewrite E. unfold read_alpha. destruct (read_while isalpha c) as [k c2] eqn:Ek.
  destruct (find_modifier modifier_table k) as [name|] eqn:Ef; auto. exfalso. apply Hm.
  destruct (rest_exists c2) as [t Ht]. pose proof (read_longest _ _ _ _ _ Ek Ht) as L.
  apply read_while_spells in Ek. destruct Ek as [Sk _].
  exists [], [], k, t, name. split; [|split].
  - cbn [app]. eapply rest_unique; [exact Hr|]. eapply rest_app; eauto.
  - split; [reflexivity|]. split; [intros ? []|]. split; auto. tauto.
  - apply modifier_found; auto.
Qed.

Lemma alpha_not r x : isalpha r = true -> isalpha x = false -> (r =? x) = false.
Proof. intros H1 H2. destruct (N.eqb_spec r x); auto. subst. congruence. Qed.
Lemma alpha_white r : isalpha r = true -> iswhite r = false.
Proof. intros H. destruct (iswhite r) eqn:E; auto. apply white_not_alpha in E. congruence. Qed.
Lemma alpha_digit r : isalpha r = true -> isdigit r = false.
Proof. intros H. destruct (isdigit r) eqn:E; auto. apply digit_not_alpha in E. congruence. Qed.

Lemma letter_range r p t : isalpha r = true -> parse_range (Cons (R r) p t) = Ok ([], Cons (R r) p t).
Proof.
  intros H. unfold parse_range. set (c := Cons (R r) p t).
  assert (W : skip_white c = c) by (unfold skip_white, skip_while; cbn; rewrite (alpha_white _ H); reflexivity).
  assert (N1 : forall x, isalpha x = false -> (r =? x) = false) by (intros; apply alpha_not; auto).
  assert (P : peek1 c = Some r) by reflexivity.
  assert (D : read_digit c = ([], c)) by (unfold read_digit, c; cbn [read_while]; rewrite (alpha_digit _ H); reflexivity).
  assert (Q : p_ 0 c = Ok (CR r)) by reflexivity.
  clearbody c.
  assert (I : range_ints (S (clen c)) c = Ok ([], c)).
  { cbn [range_ints]. rewrite W, P. unfold read_integer, o_in. rewrite P, !N1 by reflexivity. cbn [orb]. rewrite D. reflexivity. }
  assert (J : range_inner (S (clen c)) c = Ok ([], c)).
  { cbn [range_inner]. rewrite W, P. unfold range_spec. rewrite !N1 by reflexivity. rewrite (alpha_digit _ H).
    cbn [orb bind negb]. rewrite I. cbn [bind app]. rewrite Q. cbn [bind ch_is].
    rewrite !N1 by reflexivity. reflexivity. }
  cbn [range_loop]. rewrite J. cbn [bind]. unfold o_in. rewrite P, !N1 by reflexivity. cbn [orb]. rewrite P, !N1 by reflexivity. reflexivity.
Qed.

(** The start of a file whose first line begins with a letter and no modifier. *)
Lemma first_step bs b nv l ls r l' : l = r :: l' -> isalpha r = true -> ~ modifier_follows l ->
  seen_lines bs (l :: ls) -> match ls with t :: _ => ~ is_continuation t | [] => True end ->
  exists p t, let B := open_source (mkSource bs b) in spells l B (Cons EOL p t) /\ getpos B = mkPos 0 1 1 0 /\
    (ls = [] -> exists q, t = Eof q) /\
    forall fr, parse_one_cmd nv (mkSt B fr []) =
      let* st2 := parse_command nv (ea_set_line (getpos B) ea0) B (mkSt B fr []) in parse_trail st2.
Proof.
  intros El Ha Hm Hs Hc. destruct (first_line _ b _ _ Hs Hc) as [p [t [H1 [H2 H3]]]]. exists p, t. cbn zeta.
  specialize (H2 ltac:(subst l; discriminate)). split; [auto|]. split; [auto|]. split; [auto|]. intros fr.
  set (B := open_source (mkSource bs b)) in *. clearbody B.
  assert (Hr : rest_of B l) by (exists (Cons EOL p t); split; [auto|reflexivity]).
  pose proof (no_modifier (clen B) B l Hr ltac:(subst l; exact Ha) Hm) as M.
  subst l. destruct B as [|[|r'] q B]; cbn in H1; try contradiction. destruct H1 as [-> H1].
  unfold parse_one_cmd. cbn [cur with_cur].
  assert (N1 : forall x, isalpha x = false -> (r =? x) = false) by (intros; apply alpha_not; auto).
  assert (K : text_eqb (peekn 2 (Cons (R r) q B)) (T "#!") = false).
  { destruct B as [|[|y] q2 B2]; cbn; rewrite N1 by reflexivity; reflexivity. }
  rewrite K. replace (skip_white_and_colon (Cons (R r) q B)) with (Cons (R r) q B).
  2: { unfold skip_white_and_colon, skip_while. cbn [read_while]. rewrite (alpha_white _ Ha), N1 by reflexivity. reflexivity. }
  cbn [peek1]. rewrite N1 by reflexivity. unfold parse_command_modifiers. rewrite M. cbn [bind].
  rewrite letter_range by auto. reflexivity.
Qed.

Lemma peekline_spells c s z : spells s c z -> at_end z -> peekline c = s.
Proof.
  unfold peekline. revert c; induction s as [|r s IH]; intros c H Hz; cbn in H.
  - subst c. destruct z as [|[|y] p z]; try reflexivity. discriminate Hz.
  - destruct c as [|[|y] p c]; try contradiction. destruct H as [-> H]. specialize (IH _ H Hz).
    cbn [getn_all]. destruct (getn_all c). cbn in *. congruence.
Qed.

(** An unknown command. *)
Lemma unknown_first bs b nv l ls r l' file opt : nv = with_neovim opt -> l = r :: l' -> isalpha r = true -> ~ modifier_follows l ->
  (forall w x, ~ resolves nv l w x) -> ~ digit_in_name nv l ->
  seen_lines bs (l :: ls) -> match ls with t :: _ => ~ is_continuation t | [] => True end ->
  ParseFile (mkSource bs b) file opt = Failed (ErrVimlParser file 0 1 1 (T "E492: Not an editor command: " ++ l)).
Proof.
  intros Env El Ha Hm Hx Hd Hs Hc. destruct (first_step bs b nv l ls r l' El Ha Hm Hs Hc) as [p [t [H1 [H2 [_ H3]]]]].
  unfold ParseFile, parse_to_ast. fold (with_neovim opt). rewrite <- Env.
  assert (G : vim_parse nv (open_source (mkSource bs b)) =
    raise (T "E492: Not an editor command: " ++ l) (mkPos 0 1 1 0)).
  2: { rewrite G. reflexivity. }
  set (B := open_source (mkSource bs b)) in *. clearbody B. unfold vim_parse.
  assert (Hr : rest_of B l) by (exists (Cons EOL p t); split; [auto|reflexivity]).
  assert (Hp : peek1 B = Some r) by (rewrite (peek1_rest _ _ Hr), El; reflexivity).
  assert (Hw : skip_white_and_colon B = B).
  { destruct B as [|[|y] q B]; try discriminate. inversion Hp; subst y.
    unfold skip_white_and_colon, skip_while. cbn [read_while]. rewrite (alpha_white _ Ha), (alpha_not _ (C ":")) by auto. reflexivity. }
  cbn [cmds_loop cur]. replace (is_eof B) with false by (destruct B; [discriminate|reflexivity]).
  rewrite H3. unfold parse_command. cbn [cur with_cur ctx cache]. rewrite Hw, Hp.
  rewrite (alpha_not r (C """")) by auto.
  destruct (find_command nv _) as [o st'] eqn:Ef.
  apply find_command_post in Ef; [|constructor]. destruct Ef as [_ [_ [_ F]]]. cbn [cur] in F.
  destruct o as [x|].
  - exfalso. destruct (F x eq_refl) as [s [_ [_ [_ [S1 S2]]]]]. destruct (rest_exists (cur st')) as [u Hu].
    assert (Eu : l = s ++ u) by (eapply rest_unique; [exact Hr|]; eapply rest_app; eauto).
    specialize (S2 u Hu). rewrite <- Eu in S2. destruct S2 as [S2|[S2 [S3 [_ [y [z [S4 S5]]]]]]].
    + eapply Hx; eauto.
    + apply Hd. exists s, y, z. auto.
  - rewrite (peekline_spells _ _ _ H1 eq_refl), H2. reflexivity.
Qed.

Lemma upper_alpha r : isupper r = true -> isalpha r = true.
Proof. unfold isalpha. intros ->. reflexivity. Qed.
Lemma upper_not r x : isupper r = true -> isupper x = false -> (r =? x) = false.
Proof. intros H1 H2. destruct (N.eqb_spec r x); auto. subst. congruence. Qed.
Lemma read_whole f u c l : rest_of c l -> longest f u l -> exists c', read_while f c = (u, c') /\ spells u c c'.
Proof.
  intros Hr [v [-> [H1 H2]]]. destruct (read_while f c) as [s c'] eqn:E. destruct (rest_exists c') as [t Ht].
  destruct (read_longest _ _ _ _ _ E Ht) as [S1 [S2 S3]].
  assert (E2 : u ++ v = s ++ t) by (eapply rest_unique; [exact Hr|]; eapply rest_app; eauto).
  destruct (longest_fun _ _ _ _ _ E2 H1 S2 H2 S3). subst. eauto.
Qed.
Lemma user_found nv c l r l' w0 w fr : rest_of c l -> l = r :: l' -> isupper r = true ->
  longest isalpha w0 l -> user_word nv w0 -> longest isalnum w l ->
  exists c' k, find_command nv (mkSt c fr []) = (Some (user_command w), mkSt c' fr k) /\ spells w c c'.
Proof.
  intros Hr El Hu L0 Hw L1. unfold find_command. cbn [cur].
  assert (N1 : forall x, isupper x = false -> (r =? x) = false) by (intros; apply upper_not; auto).
  destruct (read_whole _ _ _ _ Hr L0) as [c1 [R1 S1]].
  assert (E : read_cmd_name c = (w0, c1)).
  { unfold read_cmd_name. rewrite !(o_is_rest _ _ _ Hr), (o_in_rest _ _ _ Hr), !(peekn_rest _ _ _ Hr).
    rewrite El. cbn [starts_with]. rewrite (N1 (C "k")) by reflexivity. rewrite (N1 (C "s")) by reflexivity. cbn [andb].
    replace (is_special_cmd r) with false.
    2: { symmetry. destruct (is_special_cmd r) eqn:X; auto. exfalso. unfold is_special_cmd in X. unfold isupper, between in Hu.
         cbn in X, Hu. lia. }
    replace (text_eqb (firstn 2 (r :: l')) (T "py")) with false.
    2: { symmetry. cbn [firstn]. cbn [text_eqb]. destruct l'; cbn; rewrite N1 by reflexivity; reflexivity. }
    unfold read_alpha. rewrite R1. destruct (negb _ && re_delete_lp w0) eqn:X; auto. apply delete_iff in X.
    exfalso. destruct X as [_ [d [I1 I2]]]. destruct L0 as [v [V _]]. rewrite El in V.
    cbn in I1. repeat destruct I1 as [<-|I1]; try contradiction; destruct I2 as [->| ->]; inversion V; subst r; discriminate Hu. }
  rewrite E. destruct w0 as [|a w0]. { destruct Hw as [Hw _]. discriminate Hw. }
  cbn [is_nil]. cbn [cache assoc_text]. rewrite (proj2 (user_word_iff _ _) Hw).
  destruct (read_alnum c1) as [s2 c2] eqn:R2. cbn [ctx].
  unfold read_alnum in R2. destruct (rest_exists c2) as [t2 Ht2]. destruct (read_longest _ _ _ _ _ R2 Ht2) as [A1 [A2 A3]].
  assert (Sp : spells ((a :: w0) ++ s2) c c2) by (eapply spells_app; eauto).
  assert (Ew : w = (a :: w0) ++ s2).
  { destruct L1 as [v [V1 [V2 V3]]]. assert (E2 : w ++ v = ((a :: w0) ++ s2) ++ t2).
    { rewrite <- V1. eapply rest_unique; [exact Hr|]. eapply rest_app; eauto. }
    assert (E3 : forallb isalnum ((a :: w0) ++ s2) = true).
    2: { exact (proj1 (longest_fun isalnum _ _ _ _ E2 V2 E3 V3 A3)). }
    rewrite forallb_app, A2, andb_true_r. apply alnum_all. destruct L0 as [? [? [? ?]]]; auto. }
  rewrite <- Ew in *. do 2 eexists. split; [reflexivity|]. exact Sp.
Qed.

(** A file of one line that starts with the name of a user command. *)
Lemma user_line bs b nv l r l' w0 w u file opt : nv = with_neovim opt -> l = r :: l' -> isupper r = true ->
  longest isalpha w0 l -> user_word nv w0 -> longest isalnum w l -> l = w ++ u ->
  seen_lines bs [l] ->
  exists ap, ParseFile (mkSource bs b) file opt =
    Returned (NFile (mkAPos 0 1 1 file) [NExcmd (mkAPos 0 1 1 file) l
      (mkAEa (starts_with (fun x => x =? C "!") u) [] 0 false 0 0 0 [] [] []
         (Some (mkAPos 0 1 1 file)) (Some (mkAPos 0 1 1 file)) (Some ap) (Some (user_command w)) [] [])]).
Proof.
  intros Env El Hu L0 Hw L1 Eu Hs. pose proof (upper_alpha _ Hu) as Ha.
  assert (Hm : ~ modifier_follows l).
  { intros [d [w1 [k [t [name [E [[D1 [D2 [D3 D4]]] [m [I [[v K] Hk]]]]]]]]]]. destruct d as [|d0 d].
    - rewrite (D3 eq_refl) in E. cbn [app] in E. destruct k as [|k0 k].
      + cbn in I. repeat (destruct I as [I|I]; [inversion I; subst; cbn in Hk; lia|]). contradiction.
      + rewrite El in E. inversion E; subst k0. cbn in I.
        cbn [app] in K. repeat (destruct I as [I|I]; [injection I as I0 _; rewrite K in I0; injection I0 as I0 _; rewrite <- I0 in Hu; discriminate Hu|]). contradiction.
    - rewrite El in E. inversion E; subst d0. cbn in D1. apply andb_true_iff in D1. destruct D1 as [D1 _].
      apply digit_not_alpha in D1. congruence. }
  destruct (first_step bs b nv l [] r l' El Ha Hm Hs I) as [p [t [H1 [H2 [H3 H4]]]]].
  destruct (H3 eq_refl) as [q ->]. clear H3.
  unfold ParseFile, parse_to_ast. fold (with_neovim opt). rewrite <- Env.
  set (B := open_source (mkSource bs b)) in *. clearbody B.
  assert (Hr : rest_of B l) by (exists (Cons EOL p (Eof q)); split; [auto|reflexivity]).
  assert (Hp : peek1 B = Some r) by (rewrite (peek1_rest _ _ Hr), El; reflexivity).
  assert (Hwc : skip_white_and_colon B = B).
  { destruct B as [|[|y] z B]; try discriminate. inversion Hp; subst y.
    unfold skip_white_and_colon, skip_while. cbn [read_while]. rewrite (alpha_white _ Ha), (alpha_not _ (C ":")) by auto. reflexivity. }
  set (fr := [mkFrame FTop (getpos B) ea0 []]).
  destruct (user_found nv B l r l' w0 w fr Hr El Hu L0 Hw L1) as [c1 [k [F1 F2]]].
  assert (Hc1 : rest_of c1 u).
  { destruct (rest_exists c1) as [v Hv]. replace u with v; auto.
    assert (E : l = w ++ v) by (eapply rest_unique; [exact Hr|]; eapply rest_app; eauto).
    rewrite Eu in E. apply app_inv_head in E. auto. }
  assert (Hname : forall y x, isupper y = false -> text_eqb w (y :: x) = false).
  { intros y x Hy. destruct L1 as [v [V _]]. destruct w as [|a w']; auto. rewrite El in V. inversion V; subst a.
    cbn. rewrite (upper_not r y) by auto. reflexivity. }
  set (force := starts_with (fun x => x =? C "!") u).
  set (c2 := if force then snd (getn 1 c1) else c1).
  assert (Sc2 : exists s, spells s c1 c2).
  { subst c2 force. rewrite <- (o_is_rest _ _ _ Hc1). destruct (o_is (peek1 c1) (C "!")) eqn:E; [|exists []; reflexivity].
    apply o_is_peek1 in E. destruct E as [pp [tt ->]]. exists (T "!"). cbn. auto. }
  destruct (skip_while_spells iswhite c2) as [wh [Sc3 _]]. fold (skip_white c2) in Sc3.
  set (c3 := skip_white c2) in *.
  set (e := ea_set_argpos (getpos c3) (ea_set_cmd (user_command w) force (ea_set_cmdpos (getpos B) (ea_set_line (getpos B) ea0)))).
  assert (G : parse_command nv (ea_set_line (getpos B) ea0) B (mkSt B fr []) =
    parse_cmd_common (mkEc e B B c3 (user_command w)) (mkSt c3 fr k)).
  { unfold parse_command. cbn [cur with_cur ctx cache]. rewrite Hwc, Hp, (alpha_not r (C """")) by auto.
    unfold with_cur. cbn [cur ctx cache]. rewrite F1. cbn [cur c_name user_command].
    rewrite !Hname by reflexivity. cbn [negb]. rewrite !andb_true_r, (o_is_rest _ _ _ Hc1). fold force. fold c2. fold c3.
    replace (has_flag (T "USERCMD") (user_command w)) with true by reflexivity. rewrite andb_false_r.
    replace (has_flag (T "ARGOPT") (user_command w)) with false by reflexivity.
    replace (has_flag (T "EDITCMD") (user_command w)) with false by reflexivity. cbn [bind andb].
    fold e. unfold write_args. rewrite !Hname by reflexivity. cbn [orb bind]. unfold read_args. rewrite Hname by reflexivity.
    replace (shift_args w e c3) with (e, c3). reflexivity.
    unfold shift_args. destruct w as [|a [|]]; auto. specialize (Hname (C "<") [] eq_refl) as N1. specialize (Hname (C ">") [] eq_refl) as N2.
    cbn [text_eqb] in N1, N2. rewrite andb_true_r in N1, N2. rewrite N1, N2. reflexivity. }
  assert (Send : exists s, spells s B (Cons EOL p (Eof q))) by eauto.
  assert (Hall : forall c s, spells s B c -> snd (getn_all c) = Cons EOL p (Eof q)).
  { intros c s Hc. clear - Hc H1. revert B l Hc H1. induction s as [|a s IH]; intros B l Hc H1; cbn in Hc.
    - subst c. revert B H1. induction l as [|a l IHl]; intros B H1; cbn in H1. subst B. reflexivity.
      destruct B as [|[|y] z B]; try contradiction. destruct H1 as [-> H1]. specialize (IHl _ H1). cbn [getn_all].
      destruct (getn_all B). exact IHl.
    - destruct B as [|[|y] z B]; try contradiction. destruct Hc as [-> Hc]. destruct l as [|b l]; cbn in H1; [discriminate|].
      destruct H1 as [-> H1]. eapply IH; eauto. }
  destruct Sc2 as [s2 Sc2].
  assert (G2 : parse_one_cmd nv (mkSt B fr []) = Ok (mkSt (Eof q) [mkFrame FTop (getpos B) ea0 [VExcmd (getpos B) e l]] k)).
  { rewrite H4, G. unfold parse_cmd_common. replace (has_flag (T "TRLBAR") _) with false by reflexivity. cbn [andb cur bind].
    rewrite (Hall c3 (w ++ s2 ++ wh)) by (eapply spells_app; eauto; eapply spells_app; eauto).
    cbn [ec_line]. replace (getstr B (Cons EOL p (Eof q))) with l. reflexivity.
    symmetry. eapply spells_getstr; eauto. }
  unfold vim_parse. fold fr. cbn [cmds_loop cur]. replace (is_eof B) with false by (destruct B; [discriminate|reflexivity]).
  rewrite G2. destruct B as [|y z B]; [discriminate|]. cbn [bind clen cmds_loop cur is_eof].
  exists (new_pos file (getpos c3)). cbn [top_frame ctx bind f_kind is_function check_missing_if_try_loops f_pos f_body].
  cbn [getpos] in H2. subst z. unfold new_pos. reflexivity.
Qed.

