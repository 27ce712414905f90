(** Facts about the nodes of accepted inputs. *)
From Coq Require Import Lia ZifyBool ZifyNat ZifyN.
From Verif Require Import Base Utf8 CharClass Reader Vnode Token Ast CmdTable Cursor Grammar TokSafe ExprSafe
  ExprParser CmdParser Export ExportSafe Script CmdBase CmdArgs CmdPieces CmdOpen ScriptExport Api ApiExpr ApiFile
  Places PlacesProof LinesProof ReaderFacts Nodes Derived Shape NodeText.

(** * Statements among the derived nodes *)

(** Not an expression or a part of one. *)
Lemma derived_stmt neovim B lp fn v : derived neovim B lp fn v ->
  match v with
  | VComment _ _ | VExcmd _ _ _ | VContinue _ _ | VBreak _ _ | VReturn _ _ _ => 
    exists w a c vs, cmd_nodes neovim w a c vs /\ In v vs /\ sfx a B /\ pl_loop w = lp /\ pl_fun w = fn
  | _ => True
  end.
Proof.
  destruct 1; try exact I.
  - pose proof (dexpr_low _ _ _ _ H). apply dexpr_level in H. destruct v; try exact I; cbn in H; lia.
  - apply dlval_level in H. destruct v; try exact I; cbn in H; lia.
  - destruct v; try exact I; eauto 10.
  - repeat destruct H1 as [H1|H1]; inversion H1; subst; exact I.
Qed.

Lemma derived_break neovim B lp fn v : derived neovim B lp fn v ->
  match v with VBreak _ _ | VContinue _ _ => lp = true | VReturn _ _ _ => fn = true | _ => True end.
Proof.
  intros H. apply derived_stmt in H. destruct v; try exact I;
    destruct H as [w [a [c [vs [H [Hv [_ [<- <-]]]]]]]]; destruct H;
    try (destruct Hv as [Hv|[]]; try discriminate Hv; auto; fail);
    apply in_app_or in Hv; destruct Hv as [Hv|[Hv|[]]]; try discriminate Hv;
    match goal with X : dtrail _ _ _ |- _ => destruct X; try contradiction end;
    destruct Hv as [Hv|[]]; discriminate Hv.
Qed.

Lemma derived_excmd neovim B lp fn p e s : derived neovim B lp fn (VExcmd p e s) ->
  exists a z, sfx a B /\ sfx z a /\ ea_linepos e = Some (getpos a) /\ s = getstr a z.
Proof.
  intros H. apply derived_stmt in H. destruct H as [w [a [c [vs [H [Hv [Ha _]]]]]]].
  exists a. destruct H; try (destruct Hv as [Hv|[]]; try discriminate Hv).
  - inversion Hv; subst. exists c. split; auto. split; auto. destruct H0 as [x H0]. eapply spells_sfx; eauto.
  - inversion Hv; subst. exists z. split; auto. split. 
    { apply head_sfx in H0. destruct H0 as [H0 _]. eapply sfx_trans; eauto. }
    split; auto. destruct H0 as [x [H0 _]]. apply H0.
  - inversion Hv; subst. exists z. split; auto. split.
    { apply head_sfx in H0. destruct H0 as [H0 _]. eapply sfx_trans; eauto. }
    split; auto. destruct H0 as [x [H0 _]]. apply H0.
  - inversion Hv; subst. exists z. split; auto. split.
    { apply head_sfx in H0. destruct H0 as [H0 _]. eapply sfx_trans; eauto. }
    split; auto. destruct H0 as [x [H0 _]]. apply H0.
  - apply in_app_or in Hv; destruct Hv as [Hv|[Hv|[]]]; try discriminate Hv.
    match goal with X : dtrail _ _ _ |- _ => destruct X; try contradiction end.
    destruct Hv as [Hv|[]]; discriminate Hv.
Qed.

Lemma derived_comment neovim B lp fn p s : derived neovim B lp fn (VComment p s) ->
  exists d c, sfx d B /\ getpos d = p /\ spells (T """" ++ s) d c /\ at_end c.
Proof.
  intros H. apply derived_stmt in H. destruct H as [w [a [c [vs [H [Hv [Ha _]]]]]]].
  destruct H; try (destruct Hv as [Hv|[]]; try discriminate Hv).
  - inversion Hv; subst. do 2 eexists. split; [exact Ha|]. split; [reflexivity|]. split; [|eauto]. cbn [app spells]. auto.
  - apply in_app_or in Hv; destruct Hv as [Hv|[Hv|[]]]; try discriminate Hv.
    match goal with X : dtrail _ _ _ |- _ => destruct X as [| | |c0 p0 t s0 q u Y X]; try contradiction end.
    destruct Hv as [Hv|[]]. inversion Hv; subst. exists (Cons (R (C """")) p t), (Cons EOL q u).
    split; [|split; [reflexivity|]; split; [cbn [app spells]; auto|reflexivity]].
    apply blank_sfx in Y.
    repeat match goal with
    | X : dhwords _ _ _ _ |- _ => apply dhwords_sfx in X
    | X : spells _ _ _ |- _ => apply spells_sfx in X
    | X : blank _ _ |- _ => apply blank_sfx in X
    | X : dlhs _ _ _ _ _ _ |- _ => apply dlhs_sfx in X
    | X : head _ _ _ _ _ _ _ |- _ => apply head_sfx in X; destruct X as [X _]
    end. eauto 10 using sfx_trans.
Qed.

Lemma derived_heredoc neovim B lp fn p ws m body : derived neovim B lp fn (VHeredoc p ws m body) ->
  exists d c c1 cms c2 c', sfx d B /\ spells (T "=<<") d c /\ dhwords c ws m c1 /\ dtrail c1 cms c2 /\ dhlines m c2 body c'.
Proof.
  inversion 1; subst.
  - pose proof (dexpr_low _ _ _ _ H0). apply dexpr_level in H0. cbn in H0; lia.
  - apply dlval_level in H0. cbn in H0; lia.
  - eauto 12.
  - match goal with X : cmd_nodes _ _ _ _ _, Hv : In _ _ |- _ => destruct X; try (destruct Hv as [Hv|[]]; discriminate Hv);
      apply in_app_or in Hv; destruct Hv as [Hv|[Hv|[]]]; try discriminate Hv;
      match goal with X : dtrail _ _ _ |- _ => destruct X; try contradiction end;
      destruct Hv as [Hv|[]]; discriminate Hv end.
  - match goal with X : In (_, _) _ |- _ => repeat destruct X as [X|X]; inversion X; subst; discriminate end.
Qed.

(** * Commands *)

Definition echo_name (k : echokind) : text :=
  match k with EEcho => T "echo" | EEchon => T "echon" | EEchomsg => T "echomsg" | EEchoerr => T "echoerr" end.
(** The names of the commands of a node, and their parsers. *)
Definition vnames (v : vnode) : list text :=
  match v with
  | VFunction _ _ _ _ _ _ _ _ => [T "function"] | VEndfunction _ _ => [T "endfunction"]
  | VDelfunction _ _ _ => [T "delfunction"] | VReturn _ _ _ => [T "return"] | VExcall _ _ _ => [T "call"]
  | VLet _ _ _ _ _ _ _ => [T "let"] | VConst _ _ _ _ _ _ _ => [T "const"] | VUnlet _ _ _ => [T "unlet"]
  | VLockvar _ _ _ _ => [T "lockvar"] | VUnlockvar _ _ _ _ => [T "unlockvar"]
  | VIf _ _ _ _ _ _ _ => [T "if"] | VElseif _ _ _ _ => [T "elseif"] | VElse _ _ _ => [T "else"]
  | VEndif _ _ => [T "endif"] | VWhile _ _ _ _ _ => [T "while"] | VEndwhile _ _ => [T "endwhile"]
  | VFor _ _ _ _ _ _ _ _ => [T "for"] | VEndfor _ _ => [T "endfor"] | VContinue _ _ => [T "continue"]
  | VBreak _ _ => [T "break"] | VTry _ _ _ _ _ _ => [T "try"] | VCatch _ _ _ _ => [T "catch"]
  | VFinally _ _ _ => [T "finally"] | VEndtry _ _ => [T "endtry"] | VThrow _ _ _ => [T "throw"]
  | VEval _ _ _ => [T "eval"] | VEcho k _ _ _ => [echo_name k] | VEchohl _ _ _ => [T "echohl"]
  | VExecute _ _ _ => [T "execute"]
  | _ => []
  end.
Definition parser_of (n : text) : text :=
  T "parse_cmd_" ++ n.
Definition excmd_all : list text := T "parse_cmd_finish" :: excmd_parsers.
(** The parser of a table entry tells its name, and no entry with one of the other parsers
    has the name of a structured command. *)
Lemma table_names : forallb (fun x =>
  forallb (fun n => negb (text_eqb (c_parser x) (parser_of n)) || text_eqb (c_name x) n)
    (T "function" :: T "let" :: T "const" :: structured_commands) &&
  negb (existsb (text_eqb (c_parser x)) excmd_all && existsb (text_eqb (c_name x)) structured_commands))
  (neovim_additional_commands ++ builtin_commands) = true.
Proof. vm_compute. reflexivity. Qed.

Lemma command_in neovim x : In x (command_table neovim) -> In x (neovim_additional_commands ++ builtin_commands).
Proof. unfold command_table. destruct neovim; auto. intros H. apply in_or_app. auto. Qed.
Lemma named_table neovim s x : named neovim s x -> In x (neovim_additional_commands ++ builtin_commands) \/ 
  (starts_upper s = true /\ x = user_command s).
Proof.
  intros H. assert (G : forall t, first_match neovim t x -> In x (neovim_additional_commands ++ builtin_commands)).
  { intros t [[b [a [E _]]] _]. apply (command_in neovim). rewrite E. apply in_or_app. right. left. auto. }
  destruct H; eauto.
Qed.
Lemma named_names neovim s x : s <> [] -> named neovim s x -> names_command s x.
Proof.
  intros Hs H. destruct H.
  - destruct H as [[b [a [_ [[[r E] K] _]]]] _]. econstructor; eauto.
  - destruct s; try discriminate. apply nc_user; auto. cbn in H. unfold isupper, between in H. change (C "A") with 65 in H.
    change (C "Z") with 90 in H. lia.
  - pose proof (named_table _ _ _ (nm_s _ _ H)) as K0. destruct K0 as [K0|[K0 _]]; [|discriminate].
    destruct H as [[b [a [E [[[r K] L] _]]]] _]. apply nc_s.
    assert (G : forallb (fun x => negb (is_prefix (T "substitute") (c_name x)) || text_eqb (c_name x) (T "substitute"))
      (neovim_additional_commands ++ builtin_commands) = true) by (vm_compute; reflexivity).
    rewrite forallb_forall in G. specialize (G x K0). apply orb_true_iff in G. destruct G as [G|G].
    + apply negb_true_iff in G. assert (is_prefix (T "substitute") (c_name x) = true) by (apply is_prefix_app; eauto). congruence.
    + apply text_eqb_eq; auto.
Qed.
(** A name read from its parser. *)
Lemma named_parser neovim s x n : named neovim s x -> c_parser x = parser_of n ->
  In n (T "function" :: T "let" :: T "const" :: structured_commands) -> c_name x = n.
Proof.
  intros H Hp Hn. destruct (named_table _ _ _ H) as [K|[_ ->]].
  - pose proof table_names as G. rewrite forallb_forall in G. specialize (G _ K). apply andb_true_iff in G. destruct G as [G _].
    rewrite forallb_forall in G. specialize (G _ Hn). rewrite Hp in G.
    replace (text_eqb (parser_of n) (parser_of n)) with true in G by (symmetry; apply text_eqb_eq; auto).
    apply text_eqb_eq; auto.
  - exfalso. cbn in Hn. repeat destruct Hn as [<-|Hn]; try discriminate Hp. contradiction.
Qed.
Lemma named_other neovim s x : named neovim s x -> In (c_parser x) excmd_all -> ~ In (c_name x) structured_commands.
Proof.
  intros H Hp Hn. destruct (named_table _ _ _ H) as [K|[U ->]].
  - pose proof table_names as G. rewrite forallb_forall in G. specialize (G _ K). apply andb_true_iff in G. destruct G as [_ G].
    apply negb_true_iff, andb_false_iff in G.
    assert (E : forall t l, In t l -> existsb (text_eqb t) l = true).
    { intros t l Ht. apply existsb_exists. exists t. split; auto. apply text_eqb_eq; auto. }
    rewrite (E _ _ Hp), (E _ _ Hn) in G. destruct G; discriminate.
  - cbn [c_name user_command] in Hn. cbn in Hn. repeat destruct Hn as [<-|Hn]; try discriminate U. contradiction.
Qed.

Lemma head_command neovim B P a b d c e : head neovim P a b d c e -> sfx a B ->
  exists x s, ea_cmd e = Some x /\ spelled B (getpos b) s /\ s <> [] /\ named neovim s x /\ c_parser x = P.
Proof.
  intros H Ha. destruct (head_B neovim B _ _ _ _ _ _ H Ha) as [Hb _]. destruct H as [x [H Hp]]. destruct (h_name _ _ _ _ _ _ _ H) as [s [H1 [_ [H2 [b' [H3 _]]]]]].
  exists x, s. split. apply (h_x _ _ _ _ _ _ _ H). split; auto. exists b, b'. auto.
Qed.
Definition vcommand neovim B (v : vnode) (e : exarg) : Prop :=
  (exists p s, v = VExcmd p e s /\ ea_cmd e = None) \/
  exists x s, ea_cmd e = Some x /\ spelled B (vpos v) s /\ s <> [] /\ named neovim s x /\
    match v with VExcmd _ _ _ => In (c_parser x) excmd_all
    | _ => exists n, vnames v = [n] /\ c_parser x = parser_of n end.
Lemma derived_command neovim B lp fn v e : derived neovim B lp fn v -> vea v = Some e -> vcommand neovim B v e.
Proof.
  intros H E. destruct H; try discriminate E.
  - pose proof (dexpr_low _ _ _ _ H). apply dexpr_level in H. rewrite level_ea in E by lia. discriminate.
  - apply dlval_level in H. rewrite level_ea in E by lia. discriminate.
  - destruct H; try (destruct H0 as [<-|[]]; try discriminate E; inversion E; subst).
    all: try (match goal with X : head _ _ ?a0 _ _ _ _, Y : sfx ?a0 _ |- _ => destruct (head_command _ _ _ _ _ _ _ _ X Y) as [x [s1 [K1 [K2 [K3 [K4 K5]]]]]] end;
         right; exists x, s1; split; auto; split; auto; split; auto; split; auto).
    all: try (eexists; split; [reflexivity|]; rewrite K5; reflexivity).
    + left. eauto.
    + right. congruence.
    + rewrite K5. left. reflexivity.
    + rewrite K5. left. reflexivity.
    + apply in_app_or in H0. destruct H0 as [H0|[<-|[]]].
      * match goal with X : dtrail _ cms _ |- _ => destruct X; try contradiction end. destruct H0 as [<-|[]]. discriminate.
      * inversion E; subst. destruct (head_command _ _ _ _ _ _ _ _ H H1) as [x [s1 [K1 [K2 [K3 [K4 K5]]]]]].
        right; exists x, s1; split; auto; split; auto; split; auto; split; auto. eexists; split; [reflexivity|]; rewrite K5; reflexivity.
    + destruct k; (eexists; split; [reflexivity|]; rewrite K5; reflexivity).
  - destruct (head_command _ _ _ _ _ _ _ _ H H0) as [x [s1 [K1 [K2 [K3 [K4 K5]]]]]].
    repeat destruct H1 as [H1|H1]; inversion H1; subst; inversion E; subst;
      (right; exists x, s1; split; auto; split; auto; split; auto; split; auto; eexists; split; [reflexivity|]; auto).
  - inversion E; subst. destruct (head_command _ _ _ _ _ _ _ _ H H0) as [x [s1 [K1 [K2 [K3 [K4 K5]]]]]].
    right; exists x, s1; split; auto; split; auto; split; auto; split; auto; eexists; split; [reflexivity|]; auto.
  - inversion E; subst. destruct (head_command _ _ _ _ _ _ _ _ H H0) as [x [s1 [K1 [K2 [K3 [K4 K5]]]]]].
    right; exists x, s1; split; auto; split; auto; split; auto; split; auto; eexists; split; [reflexivity|]; auto.
  - inversion E; subst. destruct (head_command _ _ _ _ _ _ _ _ H H0) as [x [s1 [K1 [K2 [K3 [K4 K5]]]]]].
    right; exists x, s1; split; auto; split; auto; split; auto; split; auto; eexists; split; [reflexivity|]; auto.
  - inversion E; subst. destruct (head_command _ _ _ _ _ _ _ _ H H0) as [x [s1 [K1 [K2 [K3 [K4 K5]]]]]].
    right; exists x, s1; split; auto; split; auto; split; auto; split; auto; eexists; split; [reflexivity|]; auto.
Qed.
Lemma vnames_known v n : vnames v = [n] -> In n (T "function" :: T "let" :: T "const" :: structured_commands).
Proof. destruct v; try discriminate; intros H; inversion H; subst; clear H; try destruct k; unfold structured_commands; repeat first [left; reflexivity|right]. Qed.
Lemma vnames_node file v n e x : vea v = Some e -> ea_cmd e = Some x -> vnames v = [c_name x] -> new_ast file v = Ok n ->
  In (c_name x) (command_names n) /\ match n with NExcmd _ _ _ => False | _ => True end.
Proof.
  intros He Hx Hv H. destruct v; try discriminate Hv; cbn [new_ast] in H;
    try match type of H with (match ?x with _ => _ end) = _ => destruct x eqn:?; try discriminate end;
    unbind H; inversion H; subst; split; auto; inversion Hv as [Hn]; cbn [command_names In]; auto.
  inversion He; subst. match goal with X : ea_cmd _ = Some c |- _ => rewrite Hx in X; inversion X; subst c end. rewrite <- Hn.
  destruct k; left; reflexivity.
Qed.
(** * From nodes to derivations *)

Lemma excmd_from file v p s e : new_ast file v = Ok (NExcmd p s e) ->
  exists q e', v = VExcmd q e' s /\ e = new_exarg file e' /\ p = new_pos file q.
Proof.
  intros H. destruct v; cbn [new_ast] in H;
    try match type of H with (match ?x with _ => _ end) = _ => destruct x eqn:?; try discriminate end;
    unbind H; inversion H; subst; eauto.
Qed.
Lemma comment_from file v p s : new_ast file v = Ok (NComment p s) -> exists q, v = VComment q s /\ p = new_pos file q.
Proof.
  intros H. destruct v; cbn [new_ast] in H;
    try match type of H with (match ?x with _ => _ end) = _ => destruct x eqn:?; try discriminate end;
    unbind H; inversion H; subst; eauto.
Qed.

Lemma heredoc_from file v p fl m body : new_ast file v = Ok (NHeredoc p fl m body) -> exists q ws b, v = VHeredoc q ws m b /\
  mapM (fun v => let* n := new_ast file v in expr_elem n) ws = Ok fl /\
  mapM (fun v => let* n := new_ast file v in expr_elem n) b = Ok body.
Proof.
  intros H. destruct v; cbn [new_ast] in H;
    try match type of H with (match ?x with _ => _ end) = _ => destruct x eqn:?; try discriminate end;
    unbind H; inversion H; subst; eauto 10.
Qed.

(** * Here-documents *)

Lemma blank_view c d : blank c d -> exists ws, blanks ws /\ spells ws c d.
Proof.
  intros [s [H1 [H2 H3]]]. exists s. split; auto. intros r Hr. rewrite forallb_forall in H2. specialize (H2 r Hr). unfold iswhite in H2.
  change (C " ") with 32 in H2. lia.
Qed.
Lemma hlines_view file m c body c' : dhlines m c body c' -> forall b,
  mapM (fun v => let* n := new_ast file v in expr_elem n) body = Ok b -> marker_lines m (view c) b (view c').
Proof.
  induction 1; intros b Hb.
  - cbn in Hb. inversion Hb; subst. destruct (spells_view _ _ _ H) as [mid [-> E]]. constructor; auto. apply at_end_line; auto.
  - cbn [mapM new_ast bind expr_elem] in Hb. unbind Hb. match goal with X : expr_elem _ = Ok _ |- _ => cbn in X; inversion X; subst end. inversion Hb; subst.
    destruct (spells_view _ _ _ H) as [mid [E1 E2]]. rewrite E1. cbn [view]. constructor; auto.
    change ((EOL, p_lnum p, p_col p) :: view c1) with (view (Cons EOL p c1)). rewrite <- E1. apply starts_view.
Qed.
Lemma spells_app s t a c : spells (s ++ t) a c <-> exists b, spells s a b /\ spells t b c.
Proof.
  revert a; induction s as [|r s IH]; intros a; cbn [app spells].
  - split. eauto. intros [b [<- H]]; auto.
  - split.
    + destruct a as [|[|x] p a]; try contradiction. intros [-> H]. apply IH in H. destruct H as [b [H1 H2]]. exists b. split; auto.
    + intros [b [H1 H2]]. destruct a as [|[|x] p a]; try contradiction. destruct H1 as [-> H1]. split; auto. apply IH. eauto.
Qed.
Lemma some_nonempty f m : some_of f m -> m <> [].
Proof. unfold some_of. destruct m; [intuition|discriminate]. Qed.
Lemma hwords_text file c ws m c' : dhwords c ws m c' -> forall fl rest c2,
  mapM (fun v => let* n := new_ast file v in expr_elem n) ws = Ok fl -> spells rest c' c2 ->
  exists t, spells t c c2 /\ marker_words t fl m rest.
Proof.
  induction 1; intros fl rest c2 Hf Hr.
  - cbn in Hf; inversion Hf; subst. destruct (blank_view _ _ H) as [w [K1 K2]]. exists (w ++ m ++ rest). split.
    + apply spells_app. exists d. split; auto. apply spells_app. eauto.
    + constructor; auto. eapply some_nonempty; eauto.
  - cbn [mapM new_ast bind expr_elem] in Hf. unbind Hf. match goal with X : expr_elem _ = Ok _ |- _ => cbn in X; inversion X; subst end. inversion Hf; subst. destruct (IHdhwords _ _ _ eq_refl Hr) as [t [K1 K2]].
    destruct (blank_view _ _ H) as [v [L1 L2]]. exists (v ++ w ++ t). split.
    + apply spells_app. exists d. split; auto. apply spells_app. eauto.
    + constructor; auto. eapply some_nonempty; eauto.
Qed.
Lemma trail_text c cms c' : dtrail c cms c' -> 
  is_eof c' = true \/
  exists x p ws cm, (x = EOL \/ x = R (C "|")) /\ spells (ws ++ cm) c (Cons x p c') /\ blanks ws /\ (cm = [] \/ exists s, cm = T """" ++ s).
Proof.
  destruct 1; auto; right; match goal with X : blank _ _ |- _ => destruct (blank_view _ _ X) as [w [K1 K2]] end.
  - exists EOL, p, w, []. rewrite app_nil_r. auto 10.
  - exists (R (C "|")), p, w, []. rewrite app_nil_r. auto 10.
  - exists EOL, q, w, (T """" ++ s). split; auto. split; [|eauto]. apply spells_app. eexists. split; [exact K2|]. cbn [app spells]. auto.
Qed.
Lemma hwords_marker c ws m c' : dhwords c ws m c' -> m <> [].
Proof. induction 1; auto. eapply some_nonempty; eauto. Qed.

(** * Facts *)

Section Facts.
Context (bs : list N) (fails : bool) (file : list N) (root : node) (HA : accepted bs fails file root).
Notation B := (open_source (mkSource bs fails)).

Lemma here_place ts p : seen_lines bs ts -> here B p ->
  (exists x, place_in ts x (p_lnum p) (p_col p)) /\
  (offset_in ts (p_lnum p) (p_col p) (p_off p) \/
   (p_off p = 0 /\ exists i l, p_lnum p = N.of_nat (S i) /\ nth_error ts i = Some l /\ i <> O /\ is_continuation l)).
Proof.
  intros Hs [s [H ->]]. rewrite (seen_open _ _ _ Hs) in H. apply reader_places in H. destruct H as [H1 H2].
  split; eauto. destruct H2 as [H2|[H2 [i [l [H3 [H4 [H5 [H6 _]]]]]]]]; auto. right. split; auto. exists i, l. auto.
Qed.
Lemma node_positions ts n p : seen_lines bs ts -> within root n -> In p (positions n) ->
  ap_filename p = file /\ (exists x, place_in ts x (ap_line p) (ap_column p)) /\
  (offset_in ts (ap_line p) (ap_column p) (ap_offset p) \/
   (ap_offset p = 0 /\ exists i l, ap_line p = N.of_nat (S i) /\ nth_error ts i = Some l /\ i <> O /\ is_continuation l)).
Proof.
  intros Hs Hn Hp. destruct (accepted_within _ _ _ _ _ HA Hn) as [nv [lp [fn [v [H1 H2]]]]].
  destruct (derived_here _ _ _ _ _ H1) as [K1 K2]. destruct (new_ast_ea _ _ _ H2) as [E1 E2].
  assert (G : exists q, p = new_pos file q /\ here B q).
  { unfold positions in Hp. rewrite E1, E2 in Hp. destruct Hp as [<-|Hp]; [eauto|].
    destruct (vea v) as [e|]; cbn [option_map] in Hp; [|contradiction].
    destruct (K2 e eq_refl) as [G1 [G2 G3]]. cbn [new_exarg ae_linepos ae_cmdpos ae_argpos] in Hp.
    rewrite G2 in Hp. rewrite !in_app_iff in Hp.
    destruct Hp as [Hp|[Hp|Hp]].
    - destruct (ea_linepos e); cbn in Hp; [|contradiction]. destruct Hp as [<-|[]]. eauto.
    - cbn in Hp. destruct Hp as [<-|[]]. eauto.
    - destruct (ea_argpos e); cbn in Hp; [|contradiction]. destruct Hp as [<-|[]]. eauto. }
  destruct G as [q [-> Hq]]. split; auto. apply here_place; auto.
Qed.
Lemma node_cmdpos n e : within root n -> nea n = Some e -> ae_cmdpos e = Some (npos n).
Proof.
  intros Hn He. destruct (accepted_within _ _ _ _ _ HA Hn) as [nv [lp [fn [v [H1 H2]]]]].
  destruct (derived_here _ _ _ _ _ H1) as [K1 K2]. destruct (new_ast_ea _ _ _ H2) as [E1 E2].
  rewrite E2 in He. destruct (vea v) as [e'|]; inversion He; subst. destruct (K2 _ eq_refl) as [_ [G _]].
  cbn [new_exarg ae_cmdpos]. rewrite G, E1. reflexivity.
Qed.

Lemma within_shape n : within root n -> exists v, vshape file v /\ new_ast file v = Ok n.
Proof.
  intros Hn. destruct (accepted_within _ _ _ _ _ HA Hn) as [nv [lp [fn [v [H1 H2]]]]].
  exists v. split; auto. eapply derived_shape; eauto.
Qed.
Lemma node_typed n : within root n -> typed n.
Proof. intros H. destruct (within_shape _ H) as [v [H1 H2]]. eapply shape_typed; eauto. Qed.
Lemma node_nested n : within root n -> well_nested n.
Proof. intros H. destruct (within_shape _ H) as [v [H1 H2]]. eapply shape_nested; eauto. Qed.
Lemma node_args n : within root n -> few_args n.
Proof. intros H. destruct (within_shape _ H) as [v [H1 H2]]. eapply shape_args; eauto. Qed.
Lemma node_params n : within root n -> params_good n.
Proof. intros H. destruct (within_shape _ H) as [v [H1 H2]]. eapply shape_params; eauto. Qed.
Lemma node_command n : within root n -> command_shape n.
Proof. intros H. destruct (within_shape _ H) as [v [H1 H2]]. eapply shape_command; eauto. Qed.

Lemma node_inside lp fn n : inside root lp fn n ->
  match n with NBreak _ _ | NContinue _ _ => lp = true | NReturn _ _ _ => fn = true | _ => True end.
Proof.
  intros H. destruct (accepted_parsed _ _ _ _ HA _ _ _ H) as [nv [v [H1 H2]]]. apply derived_break in H1.
  destruct v; cbn [new_ast] in H2;
    try match type of H2 with (match ?x with _ => _ end) = _ => destruct x eqn:?; try discriminate end;
    unbind H2; inversion H2; subst; auto.
Qed.

Context (cells : list (cell * N * N)) (HC : source_cells bs cells).
Lemma cells_view : cells = view B. Proof. apply source_view; auto. Qed.

Lemma node_excmd p s e : within root (NExcmd p s e) ->
  exists q post, ae_linepos e = Some q /\ run_at cells (ap_line q) (ap_column q) s post.
Proof.
  intros Hn. destruct (accepted_within _ _ _ _ _ HA Hn) as [nv [lp [fn [v [H1 H2]]]]].
  destruct (excmd_from _ _ _ _ _ H2) as [q [e' [-> [-> ->]]]].
  destruct (derived_excmd _ _ _ _ _ _ _ H1) as [a [z [K1 [K2 [K3 ->]]]]].
  exists (new_pos file (getpos a)), (view z). cbn [new_exarg ae_linepos]. rewrite K3. split; auto.
  rewrite cells_view. apply getstr_run; auto.
Qed.
Lemma node_comment p s : within root (NComment p s) ->
  exists post, text_at cells (ap_line p) (ap_column p) (T """" ++ s) post /\ line_end post.
Proof.
  intros Hn. destruct (accepted_within _ _ _ _ _ HA Hn) as [nv [lp [fn [v [H1 H2]]]]].
  destruct (comment_from _ _ _ _ H2) as [q [-> ->]].
  destruct (derived_comment _ _ _ _ _ _ H1) as [d [c [K1 [<- [K2 K3]]]]].
  exists (view c). split; [|apply at_end_line; auto]. rewrite cells_view. apply spells_text; auto.
Qed.

Lemma node_heredoc p fl m body : within root (NHeredoc p fl m body) ->
  heredoc_text cells EOL fl m body \/ heredoc_text cells (R (C "|")) fl m body.
Proof.
  intros Hn. destruct (accepted_within _ _ _ _ _ HA Hn) as [nv [lp [fn [v [H1 H2]]]]].
  destruct (heredoc_from _ _ _ _ _ _ H2) as [q [ws [b [-> [K1 K2]]]]].
  destruct (derived_heredoc _ _ _ _ _ _ _ _ H1) as [d [c [c1 [cms [c2 [c' [L1 [L2 [L3 [L4 L5]]]]]]]]]].
  pose proof (hlines_view _ _ _ _ _ L5 _ K2) as M. destruct (trail_text _ _ _ L4) as [E|[x [pp [w [cm [X [S1 [S2 S3]]]]]]]].
  - exfalso. apply hwords_marker in L3. destruct c2; try discriminate E. inversion L5; subst.
    + destruct m; [congruence|]. contradiction.
    + match goal with X : spells ?s _ _ |- _ => destruct s; cbn in X; [discriminate|contradiction] end.
  - destruct (hwords_text _ _ _ _ _ L3 _ _ _ K1 S1) as [t [T1 T2]].
    assert (S4 : spells (T "=<<" ++ t) d (Cons x pp c2)) by (apply spells_app; eauto).
    destruct (spells_text _ _ _ _ L1 S4) as [pre [mid [E1 [E2 _]]]].
    assert (G : heredoc_text cells x fl m body).
    { exists pre, mid, t, w, cm, (p_lnum pp), (p_col pp), (view c2), (view c'). rewrite cells_view. auto 10. }
    destruct X; subst x; auto.
Qed.

Lemma spelled_text p t : spelled B p t -> exists post, text_at cells (p_lnum p) (p_col p) t post.
Proof. intros [d [c [H1 [<- H2]]]]. exists (view c). rewrite cells_view. apply spells_text; auto. Qed.
Lemma bin_texts o t : In t (cmp_tok_text o) -> In t (op_text (bin_token o)).
Proof. destruct o as [| |o m| | | | | |]; try exact (fun H => H). destruct o, m; exact (fun H => H). Qed.
Lemma node_mark n : within root n -> has_mark n ->
  exists t post, In t (mark n) /\ text_at cells (ap_line (npos n)) (ap_column (npos n)) t post.
Proof.
  intros Hn Hm. destruct (accepted_within _ _ _ _ _ HA Hn) as [nv [lp [fn [v [H1 H2]]]]].
  apply derived_marked in H1. destruct v; cbn [new_ast] in H2;
    try match type of H2 with (match ?x with _ => _ end) = _ => destruct x eqn:?; try discriminate end;
    unbind H2; inversion H2; subst; try contradiction Hm; cbn [vmarked] in H1; cbn [mark npos];
    try (destruct (spelled_text _ _ H1) as [post K]; do 2 eexists; split; [|exact K]; cbn [In]; tauto).
  - destruct H1 as [t [K1 K2]]. destruct (spelled_text _ _ K2) as [post K]. exists t, post. split; auto. apply bin_texts; auto.
  - destruct (spelled_text _ _ H1) as [post K]. do 2 eexists; split; [|exact K]. destruct o; cbn; auto.
  - destruct H1 as [H1|H1]; destruct (spelled_text _ _ H1) as [post K]; do 2 eexists; (split; [|exact K]); cbn [In]; tauto.
  - destruct H1 as [H1|H1]; destruct (spelled_text _ _ H1) as [post K]; do 2 eexists; (split; [|exact K]); cbn [In]; tauto.
Qed.
Lemma node_names n e : within root n -> nea n = Some e ->
  match ae_cmd e with
  | Some x => command_of n x /\
              exists s post, names_command s x /\ text_at cells (ap_line (npos n)) (ap_column (npos n)) s post
  | None => exists p s, n = NExcmd p s e
  end.
Proof.
  intros Hn He. destruct (accepted_within _ _ _ _ _ HA Hn) as [nv [lp [fn [v [H1 H2]]]]].
  destruct (new_ast_ea _ _ _ H2) as [E1 E2]. rewrite E2 in He. destruct (vea v) as [e'|] eqn:Ev; inversion He; subst.
  cbn [new_exarg ae_cmd]. destruct (derived_command _ _ _ _ _ _ H1 Ev) as [[p [s [-> ->]]]|[x [s [K0 [K1 [K2 [K3 K4]]]]]]].
  - cbn [new_ast] in H2. inversion H2. eauto.
  - rewrite K0. destruct (spelled_text _ _ K1) as [post K]. split.
    + assert (G : forall m, vnames v = [m] /\ c_parser x = parser_of m -> In (c_name x) (command_names n) /\
        match n with NExcmd _ _ _ => False | _ => True end).
      { intros m [M1 M2]. pose proof (named_parser _ _ _ _ K3 M2 (vnames_known _ _ M1)) as M. rewrite <- M in M1.
        eapply vnames_node; eauto. }
      destruct v; try discriminate Ev; try (destruct K4 as [m K4]; destruct (G m K4); destruct n; auto; contradiction).
      cbn [new_ast] in H2. inversion H2; subst. eapply named_other; eauto.
    + exists s, post. split. eapply named_names; eauto. rewrite E1. exact K.
Qed.
Lemma node_ident p s : within root (NIdent p s) \/ within root (NCurlyLit p s) ->
  exists post, text_at cells (ap_line p) (ap_column p) s post.
Proof.
  intros Hn.
  assert (G : exists n, within root n /\ (n = NIdent p s \/ n = NCurlyLit p s)) by (destruct Hn; eauto).
  clear Hn. destruct G as [n [Hn Hs]].
  destruct (accepted_within _ _ _ _ _ HA Hn) as [nv [lp [fn [v [H1 H2]]]]].
  apply derived_marked in H1. destruct v; cbn [new_ast] in H2;
    try match type of H2 with (match ?x with _ => _ end) = _ => destruct x eqn:?; try discriminate end;
    unbind H2; inversion H2; subst; destruct Hs as [Hs|Hs]; inversion Hs; subst; cbn [vmarked] in H1;
    apply spelled_text in H1; exact H1.
Qed.
Lemma node_lit p k s : within root (NBasicLit p k s) ->
  (exists post, text_at cells (ap_line p) (ap_column p) s post) \/
  (k = TSTRING /\ exists r w pre l c mid post, s = T "'" ++ (r :: w) ++ T "'" /\
     cells = pre ++ (R r, l, c) :: mid ++ post /\ map cell_of mid = map R w /\
     starts_at (mid ++ post) (ap_line p) (ap_column p)).
Proof.
  intros Hn. destruct (accepted_within _ _ _ _ _ HA Hn) as [nv [lp [fn [v [H1 H2]]]]].
  apply derived_marked in H1. destruct v; cbn [new_ast] in H2;
    try match type of H2 with (match ?x with _ => _ end) = _ => destruct x eqn:?; try discriminate end;
    unbind H2; inversion H2; subst; cbn [vmarked] in H1.
  destruct H1 as [H1|[-> H1]]. left. apply spelled_text; auto. right. split; auto.
  destruct H1 as [r [w [d [x [q [u [c [-> [_ [-> [K1 [K2 <-]]]]]]]]]]]].
  cbn [spells] in K2. destruct x as [|r']; try contradiction. destruct K2 as [-> K2].
  destruct (sfx_view _ _ K1) as [pre [E1 _]]. destruct (spells_view _ _ _ K2) as [mid [E2 E3]].
  exists r, w, pre, (p_lnum q), (p_col q), mid, (view c). split; auto. rewrite cells_view, E1. cbn [view]. rewrite E2.
  split; auto. split; auto. rewrite <- E2. apply starts_view.
Qed.
End Facts.
