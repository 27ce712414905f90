(** Two runs over related texts, continued: the commands and one command line. *)
From Coq Require Import Lia ZifyBool ZifyNat ZifyN.
From Verif Require Import Base CharClass Reader Vnode Tokenizer ExprParser CmdTable CmdParser Cursor Sim SimCmd SimArgs.

Lemma not_eol_tok k k' : tok_eqb k k' = true -> k' <> KEol -> k <> KEol.
Proof.
  intros E N ->. unfold tok_eqb in E. cbn in E. destruct k'; cbn in E; try discriminate; [congruence|].
  destruct o, m; cbn in E; discriminate.
Qed.

(** * Nodes of :finish among the commands of the file itself *)

Definition fin_node (v : vnode) : bool :=
  match v with
  | VExcmd _ e _ => match ea_cmd e with Some x => text_eqb (c_parser x) (T "parse_cmd_finish") | None => false end
  | _ => false
  end.
Definition fin_frame (f : frame) : bool := match f_kind f with FTop => existsb fin_node (f_body f) | _ => false end.
Definition fin (fs : list frame) : bool := existsb fin_frame fs.

(** The last node of the innermost block is a command that may go on to the end of the text. *)
Definition open_parsers : list text := [T "parse_cmd_append"; T "parse_cmd_insert"; T "parse_cmd_loadkeymap"; T "parse_cmd_lua"; T "parse_cmd_mzscheme";
  T "parse_cmd_perl"; T "parse_cmd_python"; T "parse_cmd_python3"; T "parse_cmd_ruby"; T "parse_cmd_tcl"].
Definition open_node (v : vnode) : bool :=
  match v with
  | VExcmd _ e _ => match ea_cmd e with Some x => mem_text (c_parser x) open_parsers | None => false end
  | _ => false
  end.
Definition open_tail (fs : list frame) : bool :=
  match fs with f :: _ => match rev (f_body f) with v :: _ => open_node v | [] => false end | [] => false end.
Lemma tail_add n st st1 : add_node n st = Ok st1 -> open_tail (ctx st1) = open_node n.
Proof.
  unfold add_node. destruct (ctx st) as [|f fs]; [discriminate|]. intros E. injection E as <-. cbn [ctx with_ctx open_tail add_body f_body].
  rewrite rev_app_distr. reflexivity.
Qed.

(** The last node of the innermost block is a comment. *)
Definition comment_tail (fs : list frame) : bool :=
  match fs with f :: _ => match rev (f_body f) with VComment _ _ :: _ => true | _ => false end | [] => false end.
Lemma comment_add n st st1 : add_node n st = Ok st1 -> comment_tail (ctx st1) = match n with VComment _ _ => true | _ => false end.
Proof.
  unfold add_node. destruct (ctx st) as [|f fs]; [discriminate|]. intros E. injection E as <-. cbn [ctx with_ctx comment_tail add_body f_body].
  rewrite rev_app_distr. destruct n; reflexivity.
Qed.
(** One line of one character at the end of a text; the places at the end of a line. *)
Definition probe (c : cursor) : bool := match c with Cons (R _) _ (Cons EOL _ (Eof _)) => true | _ => false end.
Definition at_end (c : cursor) : bool := match c with Eof _ | Cons EOL _ _ => true | _ => false end.

Lemma fin_add n st st1 : add_node n st = Ok st1 -> fin_node n = false -> fin (ctx st1) = fin (ctx st).
Proof.
  unfold add_node. destruct (ctx st) as [|f fs]; [discriminate|]. intros E Hn. injection E as <-. cbn [ctx with_ctx fin existsb]. f_equal.
  unfold fin_frame, add_body. cbn [f_kind f_body]. destruct (f_kind f); auto. rewrite existsb_app. cbn. rewrite Hn. rewrite !orb_false_r. reflexivity.
Qed.
Lemma fin_comment st st1 : parse_comment st = Ok st1 -> fin (ctx st1) = fin (ctx st).
Proof.
  unfold parse_comment. cbv zeta. destruct (get (cur st)) as [x c1]. destruct (negb _); [discriminate|]. destruct (getn_all c1) as [s c2].
  intros E. apply fin_add in E; auto.
Qed.
Lemma fin_trail st st1 : parse_trail st = Ok st1 -> fin (ctx st1) = fin (ctx st).
Proof.
  unfold parse_trail. cbv zeta. destruct (peek (skip_white (cur st))) as [| |r].
  - intros E. injection E as <-. reflexivity.
  - intros E. injection E as <-. reflexivity.
  - destruct (r =? _). intros E; injection E as <-; reflexivity. destruct (r =? _); [|discriminate].
    destruct (parse_comment _) as [a| | |] eqn:E; try discriminate. cbn [bind]. intros E2. injection E2 as <-. apply fin_comment in E. exact E.
Qed.

(** The command of the record is kept by the argument options. *)
Lemma argopt_cmd n : forall e c e' c', argopt_loop n e c = Ok (e', c') -> ea_cmd e' = ea_cmd e.
Proof.
  induction n as [|n IH]; intros e c e' c'; [discriminate|]. cbn [argopt_loop].
  destruct (p_match 0 _ c) as [b| | |]; cbn [bind]; try discriminate. destruct (negb b). intros E; injection E as <- _; reflexivity.
  repeat match goal with
  | |- context [if ?b then _ else _] => destruct b
  | |- context [let '(_, _) := ?b in _] => destruct b
  end; cbn [bind raise]; intros E; try discriminate; apply IH in E; rewrite E; reflexivity.
Qed.
Lemma write_cmd nm cp e c e' c' : write_args nm cp e c = Ok (e', c') -> ea_cmd e' = ea_cmd e.
Proof.
  unfold write_args. destruct (_ || _); [|intros E; injection E as <- _; reflexivity].
  destruct (p_ 0 c) as [x| | |]; cbn [bind]; try discriminate. destruct (ch_is x _).
  - destruct (p_ 1 c) as [y| | |]; cbn [bind]; try discriminate. destruct (negb _); [discriminate|].
    destruct (seek_cur 2 c) as [z| | |]; cbn [bind]; try discriminate. intros E; injection E as <- _; reflexivity.
  - destruct (_ && _); intros E; injection E as <- _; reflexivity.
Qed.
Lemma read_cmd nm e c : ea_cmd (fst (read_args nm e c)) = ea_cmd e.
Proof. unfold read_args. destruct (text_eqb _ _); [|auto]. destruct (ea_forceit e); [auto|]. destruct (o_is _ _); auto. Qed.
Lemma shift_cmd nm e c : ea_cmd (fst (shift_args nm e c)) = ea_cmd e.
Proof. unfold shift_args. destruct nm as [|r [|]]; auto. destruct (_ || _); auto. destruct (read_while _ c); auto. Qed.
Lemma argcmd_cmd e c : ea_cmd (fst (parse_argcmd e c)) = ea_cmd e.
Proof. unfold parse_argcmd. destruct (o_is _ _); auto. destruct (o_is _ _); auto. destruct (read_cmdarg _); auto. Qed.
Lemma find_ctx neovim st : ctx (snd (find_command neovim st)) = ctx st.
Proof.
  unfold find_command. repeat match goal with
  | |- context [let '(_, _) := ?b in _] => destruct b
  | |- context [match ?b with _ => _ end] => destruct b
  end; reflexivity.
Qed.

Section Run.
Context (neovim : bool) (opn : bool) (F F' : cursor) (h h' : pos -> pos).
Local Notation prel := (Sim.prel h h').
Local Notation sim := (Sim.sim opn F F' h h').
Local Notation sim0 := (Sim.sim0 opn F F' h h').
Local Notation orel := (Sim.orel opn F F' h h').
Local Notation crel := (SimCmd.crel opn F F' h h').
Local Notation vrel := (Sim.vrel h h').
Local Notation vsrel := (Sim.vsrel h h').
Local Notation vorel := (Sim.vorel h h').
Local Notation vcrel := (Sim.vcrel opn F F' h h').
Local Notation vscrel := (Sim.vscrel opn F F' h h').
Local Notation trel := (Sim.trel h h').
Local Notation tgrel := (Sim.tgrel opn F F' h h').
Local Notation earel := (SimCmd.earel h h').
Local Notation srel := (SimCmd.srel opn F F' h h').
Local Notation srel0 := (SimCmd.srel0 opn F F' h h').
Local Notation krel := (SimCmd.krel opn F F' h h').
Local Notation wc := (SimArgs.wc opn F F' h h').
(** Where a state is; a state with a :finish of the file itself counts as nowhere outside.
    Nor does, if the common text ends the first text, a state whose last command is not one
    that goes on to the end of the text. If the first text has one line of one character
    more, a state that is outside is so at the end of a line, and not behind a comment. *)
Definition lcl (c : cursor) : nat := (clen c + if probe F then if at_end c then 1 else S (clen F) else 0)%nat.
Definition scl (s : pstate) : nat :=
  (lcl (cur s) + (if fin (ctx s) then S (clen F) else 0) + (if is_eof F && negb (open_tail (ctx s)) then 1 else 0) +
   (if probe F && comment_tail (ctx s) then S (clen F) else 0))%nat.
Definition eofrel (st st' : pstate) : Prop :=
  opn = true /\ is_eof (cur st) = true /\ is_eof (cur st') = true /\ SimCmd.ctxrel h h' (ctx st) (ctx st') /\ fin (ctx st) = true /\ comment_tail (ctx st) = false.
Definition srelf (st st' : pstate) : Prop := srel st st' \/ eofrel st st'.
Definition srelf0 (st st' : pstate) : Prop := srel0 st st' \/ eofrel st st'.
Local Notation tame := (Sim.tame opn F).
Lemma tame_add (P : pstate -> Prop) n st : (forall b, add_node n st = Ok b -> P b) -> tame P (add_node n st).
Proof.
  intros H. destruct (add_node n st) as [b|e|k|] eqn:E; cbn [Sim.tame]; auto; unfold add_node in E; destruct (ctx st); try discriminate.
  injection E as <-. right. exact I.
Qed.
Lemma crel_obind_eq {A A' B B'} (nu : B -> nat) (Q : A -> A' -> Prop) (S : B -> B' -> Prop) m m' k k' :
  orel Q m m' -> (forall a a', m = Ok a -> Q a a' -> crel nu S (k a) (k' a')) -> crel nu S (bind m k) (bind m' k').
Proof.
  intros M K. eapply crel_obind with (Q := fun a a' => m = Ok a /\ Q a a'); [|intros a a' [? ?]; auto].
  destruct m, m'; cbn [Sim.orel] in *; auto.
Qed.

Context (Hidx : forall p p' q q', prel p p' -> prel q q' -> (p_i p' =? p_i q' + 1) = (p_i p =? p_i q + 1)).

Ltac gtn n Sm s c1 c1' :=
  let Ea := fresh "Ea" in let Es := fresh "Es" in let s' := fresh "s'" in
  match type of Sm with Sim.sim _ _ _ _ _ ?c ?c' => destruct (sim_getn _ _ _ _ _ n _ _ Sm) as [Ea Es];
    destruct (getn n c) as [s c1]; destruct (getn n c') as [s' c1']; cbn [fst snd] in Ea, Es; subst s' end.
Ltac rdw f Sm s c1 c1' :=
  let Ea := fresh "Ea" in let Es := fresh "Es" in let s' := fresh "s'" in
  match type of Sm with Sim.sim _ _ _ _ _ ?c ?c' => destruct (sim_while _ _ _ _ _ f _ _ Sm) as [Ea Es];
    destruct (read_while f c) as [s c1]; destruct (read_while f c') as [s' c1']; cbn [fst snd] in Ea, Es; subst s' end.
Ltac all_ Sm s c1 c1' :=
  let Ea := fresh "Ea" in let Es := fresh "Es" in let s' := fresh "s'" in
  match type of Sm with Sim.sim _ _ _ _ _ ?c ?c' => destruct (sim_all _ _ _ _ _ _ _ Sm) as [Ea Es];
    destruct (getn_all c) as [s c1]; destruct (getn_all c') as [s' c1']; cbn [fst snd] in Ea, Es; subst s' end.
Ltac pk Sm := rewrite (sim_peek _ _ _ _ _ _ _ Sm).
Ltac pk1 Sm := rewrite (sim_peek1 _ _ _ _ _ _ _ Sm).
Ltac ps Sm := pose proof (sim_pos _ _ _ _ _ _ _ Sm).

(** ** Comments and line ends *)

Lemma comment_sim st st' : srel st st' -> orel srel (parse_comment st) (parse_comment st').
Proof.
  intros R. pose proof R as [Sm _]. unfold parse_comment. cbv zeta. ps Sm.
  destruct (cur st) as [p|[|x] p c] eqn:E, (cur st') as [p'|[|x'] p' c'] eqn:E'; inversion Sm; subst; cbn [get ch_of_cell ch_is negb];
    try (apply orel_raise; assumption).
  destruct (x' =? _); cbn [negb]; [|apply orel_raise; assumption].
  match goal with S1 : Sim.sim _ _ _ _ _ c c' |- _ => all_ S1 s c2 c2' end. apply add_node_sim; [|apply srel_cur; auto]. unfold Sim.vrel. cbn. f_equal. assumption.
Qed.
Lemma sim0_srel0 st st' c c' : srel st st' -> sim0 c c' -> srel0 (with_cur c st) (with_cur c' st').
Proof. intros [_ R] S0. split; auto. Qed.
Lemma srel_0 st st' : srel st st' -> srel0 st st'.
Proof. intros [A R]. split; [left; auto|auto]. Qed.
Lemma get_sim0 c c' : sim c c' -> sim0 (snd (get c)) (snd (get c')).
Proof. apply sim_get. Qed.
Lemma trail_sim st st' : srel st st' -> orel srel0 (parse_trail st) (parse_trail st').
Proof.
  intros R. pose proof R as [Sm _]. unfold parse_trail. cbv zeta. pose proof (sim_white _ _ _ _ _ _ _ Sm) as S1. pk S1. ps S1.
  pose proof (srel_cur _ _ _ _ _ _ _ _ _ R S1) as R1.
  destruct (peek (skip_white (cur st))) as [| |r].
  - apply srel_0; auto.
  - apply sim0_srel0; auto. apply get_sim0; auto.
  - destruct (r =? _). apply sim0_srel0; auto. apply get_sim0; auto. destruct (r =? _); [|apply orel_raise; auto].
    eapply orel_bind; [apply comment_sim, R1|]. intros a a' Ra. apply sim0_srel0; auto. apply get_sim0, Ra.
Qed.

(** ** Reading whole lines *)

Definition lrel (a a' : list text * cursor) : Prop := fst a = fst a' /\ sim (snd a) (snd a').
Lemma until_tame m n : forall c, (clen c <= clen F)%nat -> tame (fun a => clen (snd a) <= clen F)%nat (until_marker n m c).
Proof.
  induction n as [|n IH]; intros c L; [exact I|]. cbn [until_marker]. destruct (is_eof c); [exact L|].
  pose proof (getall_rem c) as L1. destruct (getn_all c) as [l c1]. cbn [snd] in *. destruct (text_eqb l m); [cbn; lia|].
  pose proof (get_rem c1) as L2. specialize (IH (snd (get c1)) ltac:(lia)). destruct (until_marker n m (snd (get c1))) as [[ls c2]| | |]; exact IH.
Qed.
Lemma lines_tame n : forall c, (clen c <= clen F)%nat -> tame (fun a => clen (snd a) <= clen F)%nat (read_all_lines n c).
Proof.
  induction n as [|n IH]; intros c L; [exact I|]. cbn [read_all_lines]. destruct (is_eof c); [exact L|]. unfold readline.
  pose proof (getall_rem c) as L1. destruct (getn_all c) as [l c1]. cbn [snd] in *.
  pose proof (get_rem c1) as L2. specialize (IH (snd (get c1)) ltac:(lia)). destruct (read_all_lines n (snd (get c1))) as [[ls c2]| | |]; exact IH.
Qed.
Lemma lcl_plain c : probe F = false -> lcl c = clen c.
Proof. unfold lcl. intros ->. lia. Qed.
Lemma probe_form : probe F = true -> exists r p1 p2 p3, F = Cons (R r) p1 (Cons EOL p2 (Eof p3)).
Proof. destruct F as [|[|r] p1 [|[|] p2 [|]]]; try discriminate. intros _. eauto. Qed.
Lemma until_out m n : tame (fun a => lcl (snd a) <= clen F)%nat (until_marker n m F).
Proof.
  destruct (probe F) eqn:P.
  - unfold lcl. rewrite P. destruct (probe_form P) as [r [p1 [p2 [p3 E]]]]. rewrite E. destruct n as [|n]; [exact I|]. cbn [until_marker is_eof].
    change (getn_all (Cons (R r) p1 (Cons EOL p2 (Eof p3)))) with ([r], Cons EOL p2 (Eof p3)). cbn iota beta. destruct (text_eqb [r] m); [cbn; lia|]. destruct n as [|n]; [exact I|]. cbn. lia.
  - pose proof (until_tame m n F (le_n _)) as H. destruct (until_marker n m F) as [[ls c]| | |]; cbn [Sim.tame snd] in *; auto. rewrite lcl_plain by auto. exact H.
Qed.
Lemma lines_out n : tame (fun a => lcl (snd a) <= clen F)%nat (read_all_lines n F).
Proof.
  destruct (probe F) eqn:P.
  - unfold lcl. rewrite P. destruct (probe_form P) as [r [p1 [p2 [p3 E]]]]. rewrite E. destruct n as [|n]; [exact I|]. cbn.
    destruct n as [|n]; [exact I|]. cbn. lia.
  - pose proof (lines_tame n F (le_n _)) as H. destruct (read_all_lines n F) as [[ls c]| | |]; cbn [Sim.tame snd] in *; auto. rewrite lcl_plain by auto. exact H.
Qed.
Lemma until_sim m n : forall n' c c', sim0 c c' -> crel (fun a => lcl (snd a)) lrel (until_marker n m c) (until_marker n' m c').
Proof.
  induction n as [|n IH]; intros n' c c' S0; [left; exact I|]. destruct n' as [|n']; [left; apply orel_oof_r|].
  destruct S0 as [Sm|[O [-> ->]]].
  - cbn [until_marker]. rewrite (sim_iseof _ _ _ _ _ _ _ Sm). destruct (is_eof c); [left; split; auto|]. all_ Sm l c1 c1'.
    destruct (text_eqb l m); [left; split; auto|]. eapply crel_bind; [apply IH, get_sim0, Es| |].
    + intros [ls c2] [ls' c2'] [E S2]. cbn [fst snd] in *. subst. left. split; auto.
    + intros _ [ls c2] _. cbn [Sim.tame snd]. lia.
  - apply crel_out; auto. apply until_out.
Qed.
Lemma lines_sim n : forall n' c c', sim0 c c' -> crel (fun a => lcl (snd a)) lrel (read_all_lines n c) (read_all_lines n' c').
Proof.
  induction n as [|n IH]; intros n' c c' S0; [left; exact I|]. destruct n' as [|n']; [left; apply orel_oof_r|].
  destruct S0 as [Sm|[O [-> ->]]].
  - cbn [read_all_lines]. rewrite (sim_iseof _ _ _ _ _ _ _ Sm). destruct (is_eof c); [left; split; auto|]. unfold readline. all_ Sm l c1 c1'.
    eapply crel_bind; [apply IH, get_sim0, Es| |].
    + intros [ls c2] [ls' c2'] [E S2]. cbn [fst snd] in *. subst. left. split; auto.
    + intros _ [ls c2] _. cbn [Sim.tame snd]. lia.
  - apply crel_out; auto. apply lines_out.
Qed.
Lemma heredoc_sim m n : forall n' c c', sim0 c c' -> crel (fun a => lcl (snd a) + if is_eof F then 1 else 0)%nat vscrel (heredoc_lines n m c) (heredoc_lines n' m c').
Proof.
  induction n as [|n IH]; intros n' c c' S0; [left; exact I|]. destruct n' as [|n']; [left; apply orel_oof_r|].
  destruct S0 as [Sm|[O [-> ->]]].
  - cbn [heredoc_lines]. rewrite (sim_iseof _ _ _ _ _ _ _ Sm). ps Sm. destruct (is_eof c); [left; apply orel_raise; auto|]. all_ Sm l c1 c1'.
    destruct (text_eqb l m); [left; split; auto; reflexivity|]. eapply crel_bind; [apply IH, get_sim0, Es| |].
    + intros [ls c2] [ls' c2'] [E S2]. cbn [fst snd] in *. left. split; auto. apply vsrel_cons; auto. unfold Sim.vrel. cbn. f_equal. auto.
    + intros _ [ls c2] _. cbn [Sim.tame snd]. lia.
  - apply crel_out; auto. destruct (is_eof F) eqn:EF.
    + cbn [heredoc_lines]. rewrite EF. split; [exact O|]. right. unfold raise. eauto.
    + destruct (heredoc_lines (S n) m F) as [[ls d]|e|k|] eqn:E; cbn [Sim.tame]; auto; [|split; [exact O|left; exact EF]|left; exact EF]. cbn [snd].
      destruct (probe F) eqn:P; [|apply heredoc_rem in E; rewrite lcl_plain by auto; lia].
      unfold lcl. rewrite P. destruct (probe_form P) as [r [p1 [p2 [p3 E0]]]]. rewrite E0 in E |- *. cbn [heredoc_lines is_eof] in E.
      change (getn_all (Cons (R r) p1 (Cons EOL p2 (Eof p3)))) with ([r], Cons EOL p2 (Eof p3)) in E. cbn iota beta in E. destruct (text_eqb [r] m); [injection E as _ <-; cbn; lia|]. destruct n as [|n]; cbn in E; discriminate.
Qed.

(** ** Nodes *)

Ltac nd := unfold Sim.vrel, Sim.vsrel, Sim.vorel, Sim.prel, SimCmd.earel in *; cbn [map_pos map option_map];
  repeat match goal with H : ?a = ?b |- _ => match a with
    | map_ea _ _ => rewrite H; clear H | map_pos _ _ => rewrite H; clear H | map _ _ => rewrite H; clear H | option_map _ _ => rewrite H; clear H
    | h _ => rewrite H; clear H end end; reflexivity.
Definition cmd_ok (nm : text) (f : ectx -> pstate -> outcome pstate) : Prop :=
  forall k k' st st', krel k k' -> srel st st' -> (opn = true -> fin (ctx st) = false) -> ea_cmd (ec_ea k) = Some (ec_x k) ->
    c_parser (ec_x k) = nm -> text_eqb nm (T "parse_cmd_finish") = false -> crel scl srel (f k st) (f k' st').
Definition cmd_ok0 (f : ectx -> pstate -> outcome pstate) : Prop :=
  forall k k' st st', krel k k' -> srel st st' -> orel srel (f k st) (f k' st').
Lemma ok0 nm f : cmd_ok0 f -> cmd_ok nm f.
Proof. intros H k k' st st' K R _ _ _ _. left. auto. Qed.
Lemma k_pos k k' : krel k k' -> prel (cmdpos k) (cmdpos k').
Proof. intros [_ [_ [S1 _]]]. unfold cmdpos. eapply sim_pos; eauto. Qed.
Lemma k_ea k k' : krel k k' -> earel (ec_ea k) (ec_ea k').
Proof. intros [E _]. auto. Qed.
Lemma k_line k k' : krel k k' -> sim (ec_line k) (ec_line k').
Proof. intros [_ [E _]]. auto. Qed.
Ltac kk K := pose proof (k_pos _ _ K); pose proof (k_ea _ _ K); pose proof (k_line _ _ K).
Lemma excmd_rel k k' s : krel k k' -> vrel (VExcmd (cmdpos k) (ec_ea k) s) (VExcmd (cmdpos k') (ec_ea k') s).
Proof. intros K. kk K. nd. Qed.

Lemma common_ok : cmd_ok0 parse_cmd_common.
Proof.
  intros k k' st st' K R. pose proof R as [Sm _]. unfold parse_cmd_common. pose proof K as [Ke [_ [_ [Ka Kx]]]]. rewrite <- Kx.
  destruct (ea_fields _ _ _ _ Ke) as [_ [-> _]]. kk K.
  eapply orel_bind with (Q := SimArgs.wc opn F F' h h' sim).
  - destruct (_ && _). apply separate_sim; auto. eapply sim_pos; eauto. cbv zeta. all_ Sm l c1 c1'. apply ok_wc; auto.
  - intros [e c1] [e' c1'] [Se S1]. cbn [fst snd] in *. rewrite (getstr_sim opn F F' h h' _ _ _ _ (k_line _ _ K) (or_introl Se)).
    apply add_node_sim. apply excmd_rel; auto. apply srel_cur; auto.
Qed.
Lemma excmd_scl nm k st s st1 : fin (ctx st) = false -> ea_cmd (ec_ea k) = Some (ec_x k) ->
  c_parser (ec_x k) = nm -> text_eqb nm (T "parse_cmd_finish") = false -> mem_text nm open_parsers = true ->
  add_node (VExcmd (cmdpos k) (ec_ea k) s) st = Ok st1 -> (scl st1 <= lcl (cur st))%nat.
Proof.
  intros Hf Hx Hp Hn Ho E. unfold scl. rewrite (comment_add _ _ _ E), (tail_add _ _ _ E), (fin_add _ _ _ E), Hf; apply add_node_cur in E; [rewrite E|];
    cbn [open_node fin_node]; rewrite Hx, Hp; [|exact Hn]. rewrite Ho, !andb_false_r. lia.
Qed.
Lemma append_ok nm : mem_text nm open_parsers = true -> cmd_ok nm parse_cmd_append.
Proof.
  intros Ho k k' st st' K R Hf Hx Hp Hn. unfold parse_cmd_append, readline. kk K. pose proof (k_line _ _ K) as Sl. all_ Sl l c1 c1'.
  eapply crel_bind; [apply until_sim, get_sim0, Es| |].
  - intros [ls c2] [ls' c2'] [E S2]. cbn [fst snd] in *. subst. left. apply add_node_sim. apply excmd_rel; auto. apply srel_cur; auto.
  - intros O [ls c2] _. apply tame_add. intros b E. exact (excmd_scl nm k (with_cur c2 st) _ b (Hf O) Hx Hp Hn Ho ltac:(eassumption)).
Qed.
Lemma loadkeymap_ok nm : mem_text nm open_parsers = true -> cmd_ok nm parse_cmd_loadkeymap.
Proof.
  intros Ho k k' st st' K R Hf Hx Hp Hn. unfold parse_cmd_loadkeymap, readline. kk K. pose proof (k_line _ _ K) as Sl. all_ Sl l c1 c1'.
  eapply crel_bind; [apply lines_sim, get_sim0, Es| |].
  - intros [ls c2] [ls' c2'] [E S2]. cbn [fst snd] in *. subst. left. apply add_node_sim. apply excmd_rel; auto. apply srel_cur; auto.
  - intros O [ls c2] _. apply tame_add. intros b E. exact (excmd_scl nm k (with_cur c2 st) _ b (Hf O) Hx Hp Hn Ho ltac:(eassumption)).
Qed.
Lemma lua_ok nm : mem_text nm open_parsers = true -> cmd_ok nm parse_cmd_lua.
Proof.
  intros Ho k k' st st' K R Hf Hx Hp Hn. unfold parse_cmd_lua. pose proof R as [Sm _]. pose proof (sim_white _ _ _ _ _ _ _ Sm) as S1. cbv zeta.
  rewrite (sim_peekn _ _ _ _ _ _ _ _ S1). pose proof (k_line _ _ K) as Sl.
  destruct (text_eqb (peekn 2 _) _).
  - assert (E : fst (readline (skip_white (snd (getn 2 (skip_white (cur st')))))) = fst (readline (skip_white (snd (getn 2 (skip_white (cur st))))))).
    { pose proof (sim_white _ _ _ _ _ _ _ (sim_getn_s _ _ _ _ _ 2 _ _ S1)) as S2. unfold readline. all_ S2 l c1 c1'. reflexivity. }
    rewrite E. all_ Sl l c1 c1'. eapply crel_bind; [apply until_sim, get_sim0, Es| |].
    + intros [ls c2] [ls' c2'] [E2 S2]. cbn [fst snd] in *. subst. left. apply add_node_sim. apply excmd_rel; auto. apply srel_cur; auto.
    + intros O [ls c2] _. apply tame_add. intros b E2. exact (excmd_scl nm k (with_cur c2 st) _ b (Hf O) Hx Hp Hn Ho ltac:(eassumption)).
  - all_ Sl l c1 c1'. left. apply add_node_sim. apply excmd_rel; auto. apply srel_cur; auto.
Qed.
Lemma sim_end c c' : opn = false -> sim c c' -> sim (seek_end0 c) (seek_end0 c').
Proof. intros O Sm. induction Sm; cbn [seek_end0]; auto; [constructor; auto|congruence]. Qed.
Lemma eof_end c : is_eof (seek_end0 c) = true.
Proof. induction c; cbn [seek_end0]; auto. Qed.
Lemma common_fin k st a f : ea_cmd (ec_ea k) = Some (ec_x k) -> c_parser (ec_x k) = T "parse_cmd_finish" ->
  parse_cmd_common k st = Ok a -> top_frame a = Ok f -> f_kind f = FTop -> fin (ctx a) = true.
Proof.
  intros Hx Hp. unfold parse_cmd_common. match goal with |- context [bind ?m _] => destruct m as [[e c]| | |] end; try discriminate. cbn [bind].
  unfold add_node, top_frame. cbn [ctx with_cur]. destruct (ctx st) as [|g r]; [discriminate|]. intros E. injection E as <-. cbn [ctx with_ctx]. intros E. injection E as <-.
  cbn [add_body f_kind]. intros Hk. cbn [fin existsb]. apply orb_true_iff. left. unfold fin_frame. cbn [add_body f_kind f_body]. rewrite Hk, existsb_app.
  cbn [existsb fin_node]. rewrite Hx, Hp. apply orb_true_iff. right. reflexivity.
Qed.
Lemma common_tail k st a : parse_cmd_common k st = Ok a -> comment_tail (ctx a) = false.
Proof.
  unfold parse_cmd_common. match goal with |- context [bind ?m _] => destruct m as [[e c]| | |] end; try discriminate. cbn [bind].
  intros E. apply comment_add in E. exact E.
Qed.
Lemma orel_bind_eq {A A' B B'} (Q : A -> A' -> Prop) (S : B -> B' -> Prop) m m' k k' :
  orel Q m m' -> (forall a a', m = Ok a -> Q a a' -> orel S (k a) (k' a')) -> orel S (bind m k) (bind m' k').
Proof.
  intros M K. eapply orel_bind with (Q := fun a a' => m = Ok a /\ Q a a'); [|intros a a' [? ?]; auto]. destruct m, m'; cbn [Sim.orel] in *; auto.
Qed.
Lemma finish_ok k k' st st' : krel k k' -> srel st st' -> ea_cmd (ec_ea k) = Some (ec_x k) -> c_parser (ec_x k) = T "parse_cmd_finish" ->
  orel srelf (parse_cmd_finish k st) (parse_cmd_finish k' st').
Proof.
  intros K R Hx Hp. unfold parse_cmd_finish. eapply orel_bind_eq; [apply common_ok; eauto|]. intros a a' Ea Ra.
  eapply orel_bind_eq; [apply top_rel, Ra|]. intros f f' Ef Rf. apply kind_inv in Rf. destruct Rf as [Kf _].
  pose proof (common_fin _ _ _ _ Hx Hp Ea Ef) as Kn.
  destruct (f_kind f), (f_kind f'); cbn [map_kind] in Kf; try discriminate Kf; try (left; exact Ra).
  destruct opn eqn:O.
  - rewrite <- O in *. right. split; [auto|]. cbn [cur with_cur ctx]. split; [apply eof_end|split; [apply eof_end|]]. split; [apply Ra|]. split; [rewrite (Kn eq_refl); exact O|exact (common_tail _ _ _ Ea)].
  - rewrite <- O in Ra |- *. left. apply srel_cur; auto. apply sim_end; auto. apply Ra.
Qed.

(** ** Left sides *)

Definition lvf_bad (v : vnode) : bool :=
  match v with
  | VIdent _ _ | VCurlyName _ _ | VSubscript _ _ _ | VDot _ _ _ | VLit LOption _ _ | VLit LEnv _ _ | VLit LReg _ _ => false
  | _ => true
  end.
Definition lv_err (v : vnode) : option text :=
  match v with
  | VIdent _ s => if isvarname s then None else Some (T "E461: Illegal variable name: " ++ s)
  | VCurlyName _ _ | VSubscript _ _ _ | VSlice _ _ _ _ | VDot _ _ _ | VLit LOption _ _ | VLit LEnv _ _ | VLit LReg _ _ => None
  | _ => Some (T "Invalid Expression")
  end.
Definition clv_err (v : vnode) : option text :=
  match v with
  | VIdent _ s => if isvarname s then None else Some (T "E461: Illegal variable name: " ++ s)
  | VCurlyName _ _ => None
  | VSubscript _ _ _ | VSlice _ _ _ _ | VDot _ _ _ => Some (T "E996: Cannot lock a list or dict")
  | VLit LOption _ _ => Some (T "E996: Cannot lock an option")
  | VLit LEnv _ _ => Some (T "E996: Cannot lock an environment variable")
  | VLit LReg _ _ => Some (T "E996: Cannot lock a register")
  | _ => Some (T "Invalid Expression")
  end.
Definition plain_name (v : vnode) : option text := match v with VIdent _ s => Some s | _ => None end.
Definition is_call (v : vnode) : bool := match v with VCall _ _ _ => true | _ => false end.
Lemma same_by {A} (g : vnode -> A) v v' : (forall m u, g (map_pos m u) = g u) -> vrel v v' -> g v' = g v.
Proof. intros G V. rewrite <- (G h' v'), <- (G h v). unfold Sim.vrel in V. congruence. Qed.
Lemma lvf_bad_map m u : lvf_bad (map_pos m u) = lvf_bad u. Proof. destruct u; reflexivity. Qed.
Lemma lv_err_map m u : lv_err (map_pos m u) = lv_err u. Proof. destruct u; reflexivity. Qed.
Lemma clv_err_map m u : clv_err (map_pos m u) = clv_err u. Proof. destruct u; reflexivity. Qed.
Lemma plain_name_map m u : plain_name (map_pos m u) = plain_name u. Proof. destruct u; reflexivity. Qed.
Lemma is_call_map m u : is_call (map_pos m u) = is_call u. Proof. destruct u; reflexivity. Qed.
Lemma lvf_eq v (c1 : cursor) : match v with
  | VIdent _ _ | VCurlyName _ _ | VSubscript _ _ _ | VDot _ _ _ | VLit LOption _ _ | VLit LEnv _ _ | VLit LReg _ _ => Ok (v, c1)
  | _ => raise (T "Invalid Expression") (vpos v) end = if lvf_bad v then raise (T "Invalid Expression") (vpos v) else Ok (v, c1).
Proof. destruct v; try reflexivity. destruct k; reflexivity. Qed.
Lemma lv_eq v (c1 : cursor) : match v with
  | VIdent p s => if isvarname s then Ok (v, c1) else raise (T "E461: Illegal variable name: " ++ s) p
  | VCurlyName _ _ | VSubscript _ _ _ | VSlice _ _ _ _ | VDot _ _ _ | VLit LOption _ _ | VLit LEnv _ _ | VLit LReg _ _ => Ok (v, c1)
  | _ => raise (T "Invalid Expression") (vpos v) end = match lv_err v with Some m => raise m (vpos v) | None => Ok (v, c1) end.
Proof. destruct v; try reflexivity; [destruct k; reflexivity|]. cbn [lv_err]. destruct (isvarname _); reflexivity. Qed.
Lemma clv_eq v (c1 : cursor) : match v with
  | VIdent p s => if isvarname s then Ok (v, c1) else raise (T "E461: Illegal variable name: " ++ s) p
  | VCurlyName _ _ => Ok (v, c1)
  | VSubscript p _ _ | VSlice p _ _ _ | VDot p _ _ => raise (T "E996: Cannot lock a list or dict") p
  | VLit LOption p _ => raise (T "E996: Cannot lock an option") p
  | VLit LEnv p _ => raise (T "E996: Cannot lock an environment variable") p
  | VLit LReg p _ => raise (T "E996: Cannot lock a register") p
  | _ => raise (T "Invalid Expression") (vpos v) end = match clv_err v with Some m => raise m (vpos v) | None => Ok (v, c1) end.
Proof. destruct v; try reflexivity; [destruct k; reflexivity|]. cbn [clv_err]. destruct (isvarname _); reflexivity. Qed.
Lemma lvalue_func_sim c c' : sim c c' -> orel vcrel (parse_lvalue_func c) (parse_lvalue_func c').
Proof.
  intros Sm. unfold parse_lvalue_func. eapply orel_bind; [apply Sim.parse_lvalue_sim, Sm|]. intros [v c1] [v' c1'] [V S1]. cbn [fst snd] in *.
  pose proof (vrel_pos _ _ _ _ V) as P. rewrite !lvf_eq, (same_by _ _ _ lvf_bad_map V). destruct (lvf_bad v). apply orel_raise; auto. apply ok_vc; auto.
Qed.
Lemma lvalue_sim c c' : sim c c' -> orel vcrel (parse_lvalue c) (parse_lvalue c').
Proof.
  intros Sm. unfold parse_lvalue. eapply orel_bind; [apply Sim.parse_lvalue_sim, Sm|]. intros [v c1] [v' c1'] [V S1]. cbn [fst snd] in *.
  pose proof (vrel_pos _ _ _ _ V) as P. rewrite !lv_eq, (same_by _ _ _ lv_err_map V). destruct (lv_err v). apply orel_raise; auto. apply ok_vc; auto.
Qed.
Lemma constlvalue_sim c c' : sim c c' -> orel vcrel (parse_constlvalue c) (parse_constlvalue c').
Proof.
  intros Sm. unfold parse_constlvalue. eapply orel_bind; [apply Sim.parse_lvalue_sim, Sm|]. intros [v c1] [v' c1'] [V S1]. cbn [fst snd] in *.
  pose proof (vrel_pos _ _ _ _ V) as P. rewrite !clv_eq, (same_by _ _ _ clv_err_map V). destruct (clv_err v). apply orel_raise; auto. apply ok_vc; auto.
Qed.

Ltac sm := cbn [fst snd]; first [eassumption | match goal with H : _ <> KEol -> Sim.sim _ _ _ _ _ ?a ?b |- Sim.sim _ _ _ _ _ ?a ?b =>
  apply H; first [discriminate | eapply not_eol_tok; [eassumption|discriminate]] end].
Ltac tg k s p p' c1 c1' :=
  eapply orel_bind; [eapply tget_sim; sm|];
  let k' := fresh "k'" in let s' := fresh "s'" in
  intros [[k s p] c1] [[k' s' p'] c1'] [[? [? ?]] [? ?]]; cbn [fst snd tk tv tp] in *; subst k' s'.
Ltac unx := apply orel_raise'; [reflexivity|assumption].
Ltac ee v v' c1 c1' := eapply orel_bind; [eapply parse_expr_sim; sm|]; intros [v c1] [v' c1'] [? ?]; cbn [fst snd] in *.

Definition prel3 (a a' : list vnode * list vnode * cursor) : Prop :=
  vsrel (fst (fst a)) (fst (fst a')) /\ vsrel (snd (fst a)) (snd (fst a')) /\ sim (snd a) (snd a').
Lemma vsrel_nil : vsrel [] []. Proof. reflexivity. Qed.
Lemma is_nil_rel l l' : vsrel l l' -> is_nil l' = is_nil l.
Proof. unfold Sim.vsrel. destruct l, l'; cbn; try discriminate; auto. Qed.
Lemma params_sim n : forall n' nm nd c c', sim c c' -> orel prel3 (params_loop n nm nd c) (params_loop n' nm nd c').
Proof.
  induction n as [|n IH]; intros n' nm nd c c' Sm; [exact I|]. destruct n' as [|n']; [apply orel_oof_r|]. cbn [params_loop].
  tg k s p p' c1 c1'. destruct k; try unx.
  - (* KIdent *)
    destruct (_ || _); [apply orel_raise; auto|]. destruct (mem_text _ _); [apply orel_raise; auto|]. cbv zeta.
    assert (V1 : vrel (VIdent p s) (VIdent p' s)) by nd. assert (S1 : sim c1 c1') by sm.
    tg k2 s2 p2 p2' c2 c2'. eapply orel_bind with (Q := wc vsrel).
    { destruct (tok_eqb k2 KEq) eqn:E2. assert (S2 : sim c2 c2') by sm. ee v v' c3 c3'. apply ok_wc; auto. apply vsrel_1; auto.
      destruct nd; [apply orel_raise; auto|]. apply ok_wc; auto. apply vsrel_nil. }
    intros [ds c3] [ds' c3'] [Vd S3]. cbn [fst snd] in *. ps S3.
    eapply orel_p; [eassumption|exact I|]. intros x _ _. eapply orel_bind with (Q := eq).
    { destruct (ch_in iswhite x); [|reflexivity]. eapply orel_bind; [eapply tpeek_sim, S3|]. intros t t' [Et _]. rewrite Et. reflexivity. }
    intros b b' <-. destruct b; [apply orel_raise; auto|]. tg k4 s4 p4 p4' c4 c4'. destruct k4; try unx.
    + split; [|split]; cbn [fst snd]; auto. apply vsrel_1; auto. sm.
    + assert (S4 : sim c4 c4') by sm. tg k5 s5 p5 p5' c5 c5'. destruct (tok_eqb k5 KPClose) eqn:E5.
      * split; [|split]; cbn [fst snd]; auto. apply vsrel_1; auto. sm.
      * rewrite (is_nil_rel _ _ Vd). eapply orel_bind; [apply IH, S4|]. intros [[vs ws] c6] [[vs' ws'] c6'] [A [B G]]. cbn [fst snd] in *.
        split; [|split]; cbn [fst snd]; auto. apply vsrel_cons; auto. apply vsrel_app; auto.
  - assert (S1 : sim c1 c1') by sm. tg k5 s5 p5 p5' c5 c5'. destruct (tok_eqb k5 KPClose) eqn:E5; [|unx].
    split; [|split]; cbn [fst snd]; auto. apply vsrel_1. nd. apply vsrel_nil. sm.
Qed.
Lemma attr_sim n : forall n' a c c', sim c c' -> orel (wc eq) (attr_loop n a c) (attr_loop n' a c').
Proof.
  induction n as [|n IH]; intros n' a c c' Sm; [exact I|]. destruct n' as [|n']; [apply orel_oof_r|]. cbn [attr_loop]. cbv zeta.
  pose proof (sim_white _ _ _ _ _ _ _ Sm) as S1. ps S1. unfold read_alpha. rdw isalpha S1 s c1 c1'.
  destruct (is_nil s); [apply ok_wc; auto|]. destruct (text_eqb _ _); [apply IH; auto|]. destruct (text_eqb _ _); [apply IH; auto|].
  destruct (text_eqb _ _); [apply IH; auto|]. destruct (text_eqb _ _); [apply IH; auto|]. apply orel_raise; auto.
Qed.
Definition fun_name_check (v : vnode) : outcome unit :=
  match v with
  | VIdent p s => let* bad := bad_function_name s in
    if bad : bool then raise (T "E128: Function name must start with a capital or contain a colon: " ++ s) p else Ok tt
  | _ => Ok tt
  end.
Lemma fun_check v v' : plain_name v' = plain_name v -> prel (vpos v) (vpos v') -> orel (fun _ _ => True) (fun_name_check v) (fun_name_check v').
Proof.
  intros E P.
  assert (A : forall u, fun_name_check u = match plain_name u with Some s => (let* bad := bad_function_name s in
    if bad : bool then raise (T "E128: Function name must start with a capital or contain a colon: " ++ s) (vpos u) else Ok tt) | None => Ok tt end) by (destruct u; reflexivity).
  rewrite !A, E. destruct (plain_name v) as [s|]; [|exact I]. eapply orel_bind with (Q := eq).
  unfold bad_function_name. destruct s; [apply orel_panic|reflexivity]. intros b b' <-. destruct b; [apply orel_raise; auto|exact I].
Qed.
Lemma function_ok : cmd_ok0 parse_cmd_function.
Proof.
  intros k k' st st' K R. pose proof R as [Sm _]. pose proof (common_ok _ _ _ _ K R) as Cm. unfold parse_cmd_function.
  pose proof (sim_white _ _ _ _ _ _ _ Sm) as S1. cbv zeta. pk S1. pk1 S1. destruct (ends_excmds _); [exact Cm|]. destruct (o_is _ _); [exact Cm|].
  eapply orel_bind; [apply lvalue_func_sim, S1|]. intros [v c1] [v' c1'] [V S2]. cbn [fst snd] in *.
  eapply orel_bind with (Q := fun _ _ => True).
  { pose proof (vrel_pos _ _ _ _ V) as P. pose proof (same_by _ _ _ plain_name_map V) as G. apply (fun_check v v' G P). }
  intros _ _ _. pose proof (sim_white _ _ _ _ _ _ _ S2) as S3. pk1 S3. destruct (negb _); [exact Cm|].
  pose proof (sim_getn_s _ _ _ _ _ 1 _ _ S3) as S4. tg k2 s2 p2 p2' c4 c4'. eapply orel_bind with (Q := prel3).
  { destruct (tok_eqb k2 KPClose) eqn:E. split; [|split]; cbn [fst snd]; try apply vsrel_nil. sm. apply params_sim; auto. }
  intros [[rl da] c5] [[rl' da'] c5'] [A [B S5]]. cbn [fst snd] in *. eapply orel_bind; [apply attr_sim, S5|].
  intros [a c6] [a' c6'] [E S6]. cbn [fst snd] in *. subst a'. kk K. apply push_sim; auto. cbn [map_kind]. unfold Sim.vrel, Sim.vsrel in *. congruence.
  apply srel_cur; auto.
Qed.
Lemma endfunction_ok : cmd_ok0 parse_cmd_endfunction.
Proof.
  intros k k' st st' K R. pose proof R as [Sm [X _]]. kk K. unfold parse_cmd_endfunction. eapply orel_bind; [apply top_rel, X|]. intros f f' Rf.
  eapply orel_bind; [apply check_sim; eauto|]. intros _ _ _. rewrite (is_kind_rel _ _ _ _ _ gi_fun Rf). destruct (negb _); [apply orel_raise; auto|].
  apply pop_block_sim. nd. apply srel_cur; auto. all_ Sm l c1 c1'. auto.
Qed.
Lemma delfunction_ok : cmd_ok0 parse_cmd_delfunction.
Proof.
  intros k k' st st' K R. pose proof R as [Sm [X _]]. kk K. unfold parse_cmd_delfunction. eapply orel_bind; [apply lvalue_func_sim, Sm|].
  intros [v c1] [v' c1'] [V S1]. cbn [fst snd] in *. apply add_node_sim. nd. apply srel_cur; auto.
Qed.
Lemma return_ok : cmd_ok0 parse_cmd_return.
Proof.
  intros k k' st st' K R. pose proof R as [Sm [X _]]. kk K. unfold parse_cmd_return. rewrite (in_context_rel _ _ _ _ _ gi_fun X).
  destruct (negb _); [apply orel_raise; auto|]. cbv zeta. pose proof (sim_white _ _ _ _ _ _ _ Sm) as S1. pk S1. destruct (_ || _).
  - ee v v' c1 c1'. apply add_node_sim. nd. apply srel_cur; auto.
  - apply add_node_sim. nd. apply srel_cur; auto.
Qed.
Lemma call_eq v (o : outcome pstate) : match v with VCall _ _ _ => o | _ => raise (T "Not an function call") (vpos v) end =
  if is_call v then o else raise (T "Not an function call") (vpos v).
Proof. destruct v; reflexivity. Qed.
Lemma call_ok : cmd_ok0 parse_cmd_call.
Proof.
  intros k k' st st' K R. pose proof R as [Sm [X _]]. kk K. unfold parse_cmd_call. cbv zeta. pose proof (sim_white _ _ _ _ _ _ _ Sm) as S1. pk S1. ps S1.
  destruct (ends_excmds _); [apply orel_raise; auto|]. eapply orel_bind; [apply parse_expr_sim, S1|]. intros [v c1] [v' c1'] [V S2]. cbn [fst snd] in *.
  pose proof (vrel_pos _ _ _ _ V) as P. rewrite !call_eq, (same_by _ _ _ is_call_map V). destruct (is_call v); [|apply orel_raise; auto]. apply add_node_sim. nd. apply srel_cur; auto.
Qed.
Definition hwrel (a a' : list vnode * text * cursor) : Prop := vsrel (fst (fst a)) (fst (fst a')) /\ snd (fst a) = snd (fst a') /\ sim (snd a) (snd a').
Lemma heredoc_words_sim n : forall n' c c', sim c c' -> orel hwrel (heredoc_words n c) (heredoc_words n' c').
Proof.
  induction n as [|n IH]; intros n' c c' Sm; [exact I|]. destruct n' as [|n']; [apply orel_oof_r|]. cbn [heredoc_words]. cbv zeta.
  pose proof (sim_white _ _ _ _ _ _ _ Sm) as S1. ps S1. unfold read_word. rdw iswordc S1 s c1 c1'. destruct s as [|r s]; [split; [|split]; auto; reflexivity|].
  destruct (negb _); [split; [|split]; auto; reflexivity|]. eapply orel_bind; [apply IH, Es|]. intros [[ws m] c2] [[ws' m'] c2'] [A [B G]]. cbn [fst snd] in *. subst.
  split; [|split]; cbn [fst snd]; auto. apply vsrel_cons; auto. nd.
Qed.
Lemma parse_heredoc_sim k k' st st' : krel k k' -> srel st st' -> (opn = true -> fin (ctx st) = false) ->
  crel (fun a => lcl (cur (snd a)) + (if fin (ctx (snd a)) then S (clen F) else 0) + if is_eof F then 1 else 0)%nat
    (fun a a' => vrel (fst a) (fst a') /\ srel (snd a) (snd a')) (parse_heredoc k st) (parse_heredoc k' st').
Proof.
  intros K R Hf. pose proof R as [Sm _]. kk K. unfold parse_heredoc. eapply crel_obind; [apply heredoc_words_sim, Sm|].
  intros [[ws m] c1] [[ws' m'] c1'] [A [B G]]. cbn [fst snd] in *. subst m'. ps G. destruct (is_nil m); [left; apply orel_raise; auto|].
  eapply crel_obind_eq; [apply trail_sim, srel_cur; eauto|]. intros a a' Ea Ra. pose proof Ra as [Sa _]. apply fin_trail in Ea.
  cbn [ctx with_cur] in Ea.
  eapply crel_bind; [apply heredoc_sim, Sa| |].
  - intros [ls c2] [ls' c2'] [L S2]. cbn [fst snd] in *. left. split; cbn [fst snd]. nd. eapply srel0_cur; eauto.
  - intros O [ls c2] _. cbn [Sim.tame snd]. cbn [cur ctx with_cur]. rewrite Ea, (Hf O). lia.
Qed.
Definition lhrel (a a' : list vnode * option vnode * cursor) : Prop := vsrel (fst (fst a)) (fst (fst a')) /\ vorel (snd (fst a)) (snd (fst a')) /\ sim (snd a) (snd a').
Lemma lhs_loop_sim n : forall n' c c', sim c c' -> orel lhrel (lhs_loop n c) (lhs_loop n' c').
Proof.
  induction n as [|n IH]; intros n' c c' Sm; [exact I|]. destruct n' as [|n']; [apply orel_oof_r|]. cbn [lhs_loop].
  eapply orel_bind; [apply lvalue_sim, Sm|]. intros [v c1] [v' c1'] [V S1]. cbn [fst snd] in *. tg k s p p' c2 c2'. destruct k; try unx.
  - split; [|split]; cbn [fst snd]; auto. apply vsrel_1; auto. reflexivity. sm.
  - assert (S2 : sim c2 c2') by sm. eapply orel_bind; [apply IH, S2|]. intros [[vs r] c3] [[vs' r'] c3'] [A [B G]]. cbn [fst snd] in *.
    split; [|split]; cbn [fst snd]; auto. apply vsrel_cons; auto.
  - assert (S2 : sim c2 c2') by sm. eapply orel_bind; [apply lvalue_sim, S2|]. intros [w c3] [w' c3'] [W S3]. cbn [fst snd] in *.
    tg k4 s4 p4 p4' c4 c4'. destruct (tok_eqb k4 KSqClose) eqn:E; [|unx]. split; [|split]; cbn [fst snd]; auto. apply vsrel_1; auto. nd. sm.
Qed.
Definition lrel4 (a a' : option vnode * list vnode * option vnode * cursor) : Prop :=
  vorel (fst (fst (fst a))) (fst (fst (fst a'))) /\ vsrel (snd (fst (fst a))) (snd (fst (fst a'))) /\ vorel (snd (fst a)) (snd (fst a')) /\ sim (snd a) (snd a').
Lemma lhs_sim one c c' : (forall d d', sim d d' -> orel vcrel (one d) (one d')) -> sim c c' -> orel lrel4 (parse_lhs one c) (parse_lhs one c').
Proof.
  intros H Sm. unfold parse_lhs. tg k s p p' c1 c1'. destruct (tok_eqb k KSqOpen) eqn:E.
  - eapply orel_bind; [apply lhs_loop_sim; sm|]. intros [[vs r] c3] [[vs' r'] c3'] [A [B G]]. cbn [fst snd] in *. split; [|split; [|split]]; cbn [fst snd]; auto. reflexivity.
  - eapply orel_bind; [apply H, Sm|]. intros [v c2] [v' c2'] [V S2]. cbn [fst snd] in *. split; [|split; [|split]]; cbn [fst snd]; auto. nd. apply vsrel_nil. reflexivity.
Qed.
Lemma let_ok nm : cmd_ok nm parse_cmd_let.
Proof.
  intros k k' st st' K R Hf _ _ _. pose proof R as [Sm [X _]]. pose proof (common_ok _ _ _ _ K R) as Cm. kk K. unfold parse_cmd_let. cbv zeta.
  pose proof (sim_white _ _ _ _ _ _ _ Sm) as S1. pk S1. destruct (ends_excmds _); [left; exact Cm|].
  eapply crel_obind; [apply lhs_sim, S1; apply lvalue_sim|]. intros [[[l ls] rs] c1] [[[l' ls'] rs'] c1'] [L [Ls [Rs S2]]]. cbn [fst snd] in *.
  pose proof (sim_white _ _ _ _ _ _ _ S2) as S3. pk1 S3. rewrite !(sim_peekn _ _ _ _ _ _ _ _ S3).
  remember (if text_eqb (peekn 2 (skip_white c1)) (T "..") || text_eqb (peekn 2 (skip_white c1)) (T "=<") then peekn 3 (skip_white c1) else peekn 2 (skip_white c1)) as s2 eqn:Es2. clear Es2.
  destruct (ends_excmds1 _ || _); [left; exact Cm|].
  destruct (is_assign_op s2).
  { left. eapply orel_bind; [apply parse_expr_sim, sim_getn_s, S3|]. intros [v c3] [v' c3'] [V S4]. cbn [fst snd] in *. apply add_node_sim. nd. apply srel_cur; auto. }
  destruct (text_eqb _ _).
  { eapply crel_bind; [apply parse_heredoc_sim; [exact K|apply srel_cur; [exact R|apply sim_white, sim_getn_s, S3]|exact Hf]| |].
    - intros [v a] [v' a'] [V Ra]. cbn [fst snd] in *. left. apply add_node_sim; auto. nd.
    - intros _ [v a] _. apply tame_add. intros b Eb. cbn [snd]. unfold scl. rewrite (comment_add _ _ _ Eb), andb_false_r, (fin_add _ _ _ Eb) by reflexivity. apply add_node_cur in Eb. rewrite Eb. destruct (is_eof F); cbn [andb]; [destruct (open_tail _); cbn [negb]|]; lia. }
  left. destruct (text_eqb _ _); [|apply orel_panic].
  eapply orel_bind; [apply parse_expr_sim, sim_getn_s, S3|]. intros [v c3] [v' c3'] [V S4]. cbn [fst snd] in *. apply add_node_sim. nd. apply srel_cur; auto.
Qed.
Lemma const_ok : cmd_ok0 parse_cmd_const.
Proof.
  intros k k' st st' K R. pose proof R as [Sm [X _]]. pose proof (common_ok _ _ _ _ K R) as Cm. kk K. unfold parse_cmd_const. cbv zeta.
  pose proof (sim_white _ _ _ _ _ _ _ Sm) as S1. pk S1. destruct (ends_excmds _); [exact Cm|].
  eapply orel_bind; [apply lhs_sim, S1; apply constlvalue_sim|]. intros [[[l ls] rs] c1] [[[l' ls'] rs'] c1'] [L [Ls [Rs S2]]]. cbn [fst snd] in *.
  pose proof (sim_white _ _ _ _ _ _ _ S2) as S3. pk1 S3. destruct (_ || _); [exact Cm|].
  eapply orel_bind; [apply parse_expr_sim, sim_getn_s, S3|]. intros [v c3] [v' c3'] [V S4]. cbn [fst snd] in *. apply add_node_sim. nd. apply srel_cur; auto.
Qed.
Lemma lvalues_sim n : forall n' c c', sim c c' -> orel vscrel (lvalues_loop n c) (lvalues_loop n' c').
Proof.
  induction n as [|n IH]; intros n' c c' Sm; [exact I|]. destruct n' as [|n']; [apply orel_oof_r|]. cbn [lvalues_loop]. cbv zeta.
  pose proof (sim_white _ _ _ _ _ _ _ Sm) as S1. pk S1. destruct (ends_excmds _); [apply ok_vsc; auto; apply vsrel_nil|].
  eapply orel_bind; [apply lvalue_sim, S1|]. intros [v c1] [v' c1'] [V S2]. cbn [fst snd] in *. eapply orel_bind; [apply IH, S2|].
  intros [vs c2] [vs' c2'] [Vs S3]. cbn [fst snd] in *. apply ok_vsc; auto. apply vsrel_cons; auto.
Qed.
Lemma lvaluelist_sim c c' : sim c c' -> orel vscrel (parse_lvaluelist c) (parse_lvaluelist c').
Proof.
  intros Sm. unfold parse_lvaluelist. ee v v' c1 c1'. eapply orel_bind; [apply lvalues_sim; eassumption|].
  intros [vs c2] [vs' c2'] [Vs S3]. cbn [fst snd] in *. apply ok_vsc; auto. apply vsrel_cons; auto.
Qed.
Lemma exprs_sim n : forall n' c c', sim c c' -> orel vscrel (exprs_loop n c) (exprs_loop n' c').
Proof.
  induction n as [|n IH]; intros n' c c' Sm; [exact I|]. destruct n' as [|n']; [apply orel_oof_r|]. cbn [exprs_loop]. cbv zeta.
  pose proof (sim_white _ _ _ _ _ _ _ Sm) as S1. pk S1. destruct (_ && _); [apply ok_vsc; auto; apply vsrel_nil|].
  ee v v' c1 c1'. eapply orel_bind; [apply IH; eassumption|].
  intros [vs c2] [vs' c2'] [Vs S3]. cbn [fst snd] in *. apply ok_vsc; auto. apply vsrel_cons; auto.
Qed.
Lemma unlet_ok : cmd_ok0 parse_cmd_unlet.
Proof.
  intros k k' st st' K R. pose proof R as [Sm [X _]]. kk K. unfold parse_cmd_unlet. eapply orel_bind; [apply lvaluelist_sim, Sm|].
  intros [vs c2] [vs' c2'] [Vs S3]. cbn [fst snd] in *. apply add_node_sim. nd. apply srel_cur; auto.
Qed.
Lemma lock_ok mk : (forall p p' e e' d vs vs', prel p p' -> earel e e' -> vsrel vs vs' -> vrel (mk p e d vs) (mk p' e' d vs')) -> cmd_ok0 (parse_cmd_lock mk).
Proof.
  intros M k k' st st' K R. pose proof R as [Sm [X _]]. kk K. unfold parse_cmd_lock. cbv zeta. pose proof (sim_white _ _ _ _ _ _ _ Sm) as S1. pk1 S1.
  eapply orel_bind with (Q := SimArgs.wc opn F F' h h' eq).
  { destruct (o_in _ _); [|apply ok_wc; auto]. unfold read_digit. rdw isdigit S1 s c1 c1'. eapply orel_bind; [apply str2nr_sim|]. intros z z' <-. apply ok_wc; auto. }
  intros [d c1] [d' c1'] [E S2]. cbn [fst snd] in *. subst d'. eapply orel_bind; [apply lvaluelist_sim, S2|].
  intros [vs c2] [vs' c2'] [Vs S3]. cbn [fst snd] in *. apply add_node_sim. apply M; auto. apply srel_cur; auto.
Qed.

(** ** Blocks *)

Lemma if_ok : cmd_ok0 parse_cmd_if.
Proof.
  intros k k' st st' K R. pose proof R as [Sm [X _]]. kk K. unfold parse_cmd_if. ee v v' c1 c1'. apply push_sim; auto. cbn [map_kind]. unfold Sim.vrel in *. cbn. congruence.
  apply srel_cur; auto.
Qed.
Lemma while_ok : cmd_ok0 parse_cmd_while.
Proof.
  intros k k' st st' K R. pose proof R as [Sm [X _]]. kk K. unfold parse_cmd_while. ee v v' c1 c1'. apply push_sim; auto. cbn [map_kind]. unfold Sim.vrel in *. cbn. congruence.
  apply srel_cur; auto.
Qed.
Lemma part_sim (b : bool) st st' : srel st st' -> orel srel (if b then Ok st else pop_part st) (if b then Ok st' else pop_part st').
Proof. intros R. destruct b; [exact R|apply pop_part_sim; auto]. Qed.
Lemma elseif_ok : cmd_ok0 parse_cmd_elseif.
Proof.
  intros k k' st st' K R. pose proof R as [Sm [X _]]. kk K. unfold parse_cmd_elseif. eapply orel_bind; [apply top_rel, X|]. intros f f' Rf.
  rewrite (is_kind_rel _ _ _ _ _ gi_if Rf). apply kind_inv in Rf. destruct Rf as [Kf _].
  assert (G : orel srel (bind (if is_if (f_kind f) then Ok st else pop_part st) (fun st1 => bind (parse_expr (cur st1)) (fun '(v, c1) => Ok (push_context (FElseif v) (cmdpos k) (ec_ea k) (with_cur c1 st1)))))
                        (bind (if is_if (f_kind f) then Ok st' else pop_part st') (fun st1 => bind (parse_expr (cur st1)) (fun '(v, c1) => Ok (push_context (FElseif v) (cmdpos k') (ec_ea k') (with_cur c1 st1)))))).
  { eapply orel_bind; [apply part_sim, R|]. intros a a' Ra. pose proof Ra as [Sa _]. ee v v' c1 c1'. apply push_sim; auto. cbn [map_kind]. unfold Sim.vrel in *. congruence.
    apply srel_cur; auto. }
  destruct (f_kind f), (f_kind f'); cbn [map_kind] in Kf; try discriminate Kf; try (apply orel_raise; assumption); exact G.
Qed.
Lemma else_ok : cmd_ok0 parse_cmd_else.
Proof.
  intros k k' st st' K R. pose proof R as [Sm [X _]]. kk K. unfold parse_cmd_else. eapply orel_bind; [apply top_rel, X|]. intros f f' Rf.
  rewrite (is_kind_rel _ _ _ _ _ gi_if Rf). apply kind_inv in Rf. destruct Rf as [Kf _].
  assert (G : orel srel (bind (if is_if (f_kind f) then Ok st else pop_part st) (fun st1 => Ok (push_context FElse (cmdpos k) (ec_ea k) st1)))
                        (bind (if is_if (f_kind f) then Ok st' else pop_part st') (fun st1 => Ok (push_context FElse (cmdpos k') (ec_ea k') st1)))).
  { eapply orel_bind; [apply part_sim, R|]. intros a a' Ra. apply push_sim; auto. }
  destruct (f_kind f), (f_kind f'); cbn [map_kind] in Kf; try discriminate Kf; try (apply orel_raise; assumption); exact G.
Qed.
Lemma finally_ok : cmd_ok0 parse_cmd_finally.
Proof.
  intros k k' st st' K R. pose proof R as [Sm [X _]]. kk K. unfold parse_cmd_finally. eapply orel_bind; [apply top_rel, X|]. intros f f' Rf.
  rewrite (is_kind_rel _ _ _ _ _ gi_try Rf). apply kind_inv in Rf. destruct Rf as [Kf _].
  assert (G : orel srel (bind (if is_try (f_kind f) then Ok st else pop_part st) (fun st1 => Ok (push_context FFinally (cmdpos k) (ec_ea k) st1)))
                        (bind (if is_try (f_kind f) then Ok st' else pop_part st') (fun st1 => Ok (push_context FFinally (cmdpos k') (ec_ea k') st1)))).
  { eapply orel_bind; [apply part_sim, R|]. intros a a' Ra. apply push_sim; auto. }
  destruct (f_kind f), (f_kind f'); cbn [map_kind] in Kf; try discriminate Kf; try (apply orel_raise; assumption); exact G.
Qed.
Lemma catch_pat_sim c c' : sim c c' -> orel (wc eq)
  (if ends_excmds (peek c) then Ok ([], c) else match get c with (CR d, c') => let* '(s, _, c'') := parse_pattern d c' in Ok (s, c'') | (_, c') => Ok ([], c') end)
  (if ends_excmds (peek c') then Ok ([], c') else match get c' with (CR d, c') => let* '(s, _, c'') := parse_pattern d c' in Ok (s, c'') | (_, c') => Ok ([], c') end).
Proof.
  intros Sm. pk Sm. destruct (ends_excmds (peek c)) eqn:E; [apply ok_wc; auto|].
  destruct Sm as [p p' O P|p p' O P|[|r] p p' c c' P Sm]; try discriminate E. cbn [get ch_of_cell].
  eapply orel_bind; [apply parse_pattern_sim, Sm|]. intros [[s e] c1] [[s' e'] c1'] [Eq S2]. cbn [fst snd] in *. injection Eq as <- <-. apply ok_wc; auto.
Qed.
Lemma catch_ok : cmd_ok0 parse_cmd_catch.
Proof.
  intros k k' st st' K R. pose proof R as [Sm [X _]]. kk K. unfold parse_cmd_catch. eapply orel_bind; [apply top_rel, X|]. intros f f' Rf.
  rewrite (is_kind_rel _ _ _ _ _ gi_try Rf). apply kind_inv in Rf. destruct Rf as [Kf _].
  match goal with |- context [let* st1 := (if is_try (f_kind f) then Ok st else pop_part st) in @?K1 st1] =>
    match goal with |- context [let* st2 := (if is_try (f_kind f) then Ok st' else pop_part st') in @?K2 st2] =>
    assert (G : orel srel (bind (if is_try (f_kind f) then Ok st else pop_part st) K1) (bind (if is_try (f_kind f) then Ok st' else pop_part st') K2)) end end.
  { eapply orel_bind; [apply part_sim, R|]. intros a a' Ra. cbv zeta beta. pose proof Ra as [Sa _]. pose proof (sim_white _ _ _ _ _ _ _ Sa) as S1.
    eapply orel_bind; [apply catch_pat_sim, S1|]. intros [s c1] [s' c1'] [E S2]. cbn [fst snd] in *. subst s'. apply push_sim; auto. apply srel_cur; auto. }
  destruct (f_kind f), (f_kind f'); cbn [map_kind] in Kf; try discriminate Kf; try (apply orel_raise; assumption); exact G.
Qed.
Lemma endif_ok : cmd_ok0 parse_cmd_endif.
Proof.
  intros k k' st st' K R. pose proof R as [Sm [X _]]. kk K. unfold parse_cmd_endif. eapply orel_bind; [apply top_rel, X|]. intros f f' Rf.
  rewrite (is_kind_rel _ _ _ _ _ gi_if Rf), (is_kind_rel _ _ _ _ _ gi_ifp Rf). destruct (negb _); [apply orel_raise; auto|].
  eapply orel_bind; [apply part_sim, R|]. intros a a' Ra. apply pop_block_sim; auto. nd.
Qed.
Lemma endtry_ok : cmd_ok0 parse_cmd_endtry.
Proof.
  intros k k' st st' K R. pose proof R as [Sm [X _]]. kk K. unfold parse_cmd_endtry. eapply orel_bind; [apply top_rel, X|]. intros f f' Rf.
  rewrite (is_kind_rel _ _ _ _ _ gi_try Rf), (is_kind_rel _ _ _ _ _ gi_tryp Rf). destruct (negb _); [apply orel_raise; auto|].
  eapply orel_bind; [apply part_sim, R|]. intros a a' Ra. apply pop_block_sim; auto. nd.
Qed.
Lemma endwhile_ok : cmd_ok0 parse_cmd_endwhile.
Proof.
  intros k k' st st' K R. pose proof R as [Sm [X _]]. kk K. unfold parse_cmd_endwhile. eapply orel_bind; [apply top_rel, X|]. intros f f' Rf.
  rewrite (is_kind_rel _ _ _ _ _ gi_while Rf). destruct (negb _); [apply orel_raise; auto|]. apply pop_block_sim; auto. nd.
Qed.
Lemma endfor_ok : cmd_ok0 parse_cmd_endfor.
Proof.
  intros k k' st st' K R. pose proof R as [Sm [X _]]. kk K. unfold parse_cmd_endfor. eapply orel_bind; [apply top_rel, X|]. intros f f' Rf.
  rewrite (is_kind_rel _ _ _ _ _ gi_for Rf). destruct (negb _); [apply orel_raise; auto|]. apply pop_block_sim; auto. nd.
Qed.
Lemma for_ok : cmd_ok0 parse_cmd_for.
Proof.
  intros k k' st st' K R. pose proof R as [Sm [X _]]. kk K. unfold parse_cmd_for.
  eapply orel_bind; [apply lhs_sim, Sm; apply lvalue_sim|]. intros [[[l ls] rs] c1] [[[l' ls'] rs'] c1'] [L [Ls [Rs S2]]]. cbn [fst snd] in *. cbv zeta.
  pose proof (sim_white _ _ _ _ _ _ _ S2) as S3. ps S3. unfold read_alpha. rdw isalpha S3 s c3 c3'. destruct (negb _); [apply orel_raise; auto|].
  ee v v' c4 c4'. apply push_sim; auto. cbn [map_kind]. unfold Sim.vrel, Sim.vsrel, Sim.vorel in *. congruence. apply srel_cur; auto.
Qed.
Lemma try_ok : cmd_ok0 parse_cmd_try.
Proof. intros k k' st st' K R. kk K. unfold parse_cmd_try. apply push_sim; auto. Qed.
Lemma continue_ok : cmd_ok0 parse_cmd_continue.
Proof.
  intros k k' st st' K R. pose proof R as [Sm [X _]]. kk K. unfold parse_cmd_continue. rewrite (in_context_rel _ _ _ _ _ gi_while X), (in_context_rel _ _ _ _ _ gi_for X).
  destruct (_ && _); [apply orel_raise; auto|]. apply add_node_sim; auto. nd.
Qed.
Lemma break_ok : cmd_ok0 parse_cmd_break.
Proof.
  intros k k' st st' K R. pose proof R as [Sm [X _]]. kk K. unfold parse_cmd_break. rewrite (in_context_rel _ _ _ _ _ gi_while X), (in_context_rel _ _ _ _ _ gi_for X).
  destruct (_ && _); [apply orel_raise; auto|]. apply add_node_sim; auto. nd.
Qed.

(** ** The other commands *)

Lemma throw_ok : cmd_ok0 parse_cmd_throw.
Proof. intros k k' st st' K R. pose proof R as [Sm _]. kk K. unfold parse_cmd_throw. ee v v' c1 c1'. apply add_node_sim. nd. apply srel_cur; auto. Qed.
Lemma eval_ok : cmd_ok0 parse_cmd_eval.
Proof. intros k k' st st' K R. pose proof R as [Sm _]. kk K. unfold parse_cmd_eval. ee v v' c1 c1'. apply add_node_sim. nd. apply srel_cur; auto. Qed.
Lemma echo_ok e : cmd_ok0 (parse_cmd_echo e).
Proof.
  intros k k' st st' K R. pose proof R as [Sm _]. kk K. unfold parse_cmd_echo. eapply orel_bind; [apply exprs_sim, Sm|].
  intros [vs c2] [vs' c2'] [Vs S3]. cbn [fst snd] in *. apply add_node_sim. nd. apply srel_cur; auto.
Qed.
Lemma execute_ok : cmd_ok0 parse_cmd_execute.
Proof.
  intros k k' st st' K R. pose proof R as [Sm _]. kk K. unfold parse_cmd_execute. eapply orel_bind; [apply exprs_sim, Sm|].
  intros [vs c2] [vs' c2'] [Vs S3]. cbn [fst snd] in *. apply add_node_sim. nd. apply srel_cur; auto.
Qed.
Lemma echohl_ok : cmd_ok0 parse_cmd_echohl.
Proof.
  intros k k' st st' K R. pose proof R as [Sm _]. kk K. unfold parse_cmd_echohl. rdw (fun r => negb (ends_excmds (CR r))) Sm s c1 c1'.
  apply add_node_sim. nd. apply srel_cur; auto.
Qed.
Lemma wincmd_ok : cmd_ok0 parse_wincmd.
Proof.
  intros k k' st st' K R. pose proof R as [Sm _]. kk K. unfold parse_wincmd. gtn 1%nat Sm s c1 c1'. ps Es. destruct s as [|r s]; [apply orel_raise; auto|].
  eapply orel_bind with (Q := sim).
  { destruct (_ || _); [|exact Es]. gtn 1%nat Es s2 c2 c2'. ps Es0. destruct s2 as [|r2 s2]; [apply orel_raise; auto|]. destruct (iswhite r2); [apply orel_raise; auto|auto]. }
  intros c2 c2' S2. cbv zeta. pose proof (sim_white _ _ _ _ _ _ _ S2) as S3. ps S3. pk S3. destruct (negb _); [apply orel_raise; auto|].
  rewrite (getstr_sim opn F F' h h' _ _ _ _ (k_line _ _ K) (or_introl S2)). apply add_node_sim. nd. apply srel_cur; auto.
Qed.
Lemma syntax_loop_sim n : forall n' c c', sim c c' -> orel sim (syntax_loop n c) (syntax_loop n' c').
Proof.
  induction n as [|n IH]; intros n' c c' Sm; [exact I|]. destruct n' as [|n']; [apply orel_oof_r|]. cbn [syntax_loop].
  pk Sm. destruct (peek c) as [| |r]; auto. destruct (_ || _); [|destruct (r =? _)].
  - eapply orel_bind; [apply parse_pattern_sim, sim_getn_s, Sm|]. intros [[s e] c1] [[s' e'] c1'] [_ S2]. cbn [fst snd] in *. apply IH, sim_getn_s; auto.
  - eapply orel_bind; [apply parse_pattern_sim, sim_getn_s, Sm|]. intros [[s e] c1] [[s' e'] c1'] [_ S2]. cbn [fst snd] in *. apply IH, sim_getn_s; auto.
  - destruct (r =? _); auto. apply IH, sim_getn_s; auto.
Qed.
Lemma syntax_ok : cmd_ok0 parse_cmd_syntax.
Proof.
  intros k k' st st' K R. pose proof R as [Sm _]. kk K. unfold parse_cmd_syntax. eapply orel_bind; [apply syntax_loop_sim, Sm|]. intros c2 c2' S2.
  rewrite (getstr_sim opn F F' h h' _ _ _ _ (k_line _ _ K) (or_introl S2)). apply add_node_sim. nd. apply srel_cur; auto.
Qed.

Definition entry_ok (e : text * (ectx -> pstate -> outcome pstate)) : Prop :=
  (fst e = T "parse_cmd_finish" /\ snd e = parse_cmd_finish) \/ (text_eqb (fst e) (T "parse_cmd_finish") = false /\ cmd_ok (fst e) (snd e)).
Lemma table_ok : Forall entry_ok parser_table.
Proof.
  unfold parser_table. repeat (apply Forall_cons; [first [left; split; reflexivity|right; split; [vm_compute; reflexivity|cbn [fst snd]]]|]); [..|apply Forall_nil];
    match goal with
    | |- cmd_ok _ parse_cmd_break => exact (ok0 _ _ break_ok)
    | |- cmd_ok _ parse_cmd_call => exact (ok0 _ _ call_ok)
    | |- cmd_ok _ parse_cmd_catch => exact (ok0 _ _ catch_ok)
    | |- cmd_ok _ parse_cmd_common => exact (ok0 _ _ common_ok)
    | |- cmd_ok _ parse_cmd_continue => exact (ok0 _ _ continue_ok)
    | |- cmd_ok _ parse_cmd_delfunction => exact (ok0 _ _ delfunction_ok)
    | |- cmd_ok _ parse_cmd_echohl => exact (ok0 _ _ echohl_ok)
    | |- cmd_ok _ parse_cmd_else => exact (ok0 _ _ else_ok)
    | |- cmd_ok _ parse_cmd_elseif => exact (ok0 _ _ elseif_ok)
    | |- cmd_ok _ parse_cmd_endfor => exact (ok0 _ _ endfor_ok)
    | |- cmd_ok _ parse_cmd_endfunction => exact (ok0 _ _ endfunction_ok)
    | |- cmd_ok _ parse_cmd_endif => exact (ok0 _ _ endif_ok)
    | |- cmd_ok _ parse_cmd_endtry => exact (ok0 _ _ endtry_ok)
    | |- cmd_ok _ parse_cmd_endwhile => exact (ok0 _ _ endwhile_ok)
    | |- cmd_ok _ parse_cmd_execute => exact (ok0 _ _ execute_ok)
    | |- cmd_ok _ parse_cmd_finally => exact (ok0 _ _ finally_ok)
    | |- cmd_ok _ parse_cmd_for => exact (ok0 _ _ for_ok)
    | |- cmd_ok _ parse_cmd_function => exact (ok0 _ _ function_ok)
    | |- cmd_ok _ parse_cmd_if => exact (ok0 _ _ if_ok)
    | |- cmd_ok _ parse_cmd_const => exact (ok0 _ _ const_ok)
    | |- cmd_ok _ parse_cmd_return => exact (ok0 _ _ return_ok)
    | |- cmd_ok _ parse_cmd_throw => exact (ok0 _ _ throw_ok)
    | |- cmd_ok _ parse_cmd_eval => exact (ok0 _ _ eval_ok)
    | |- cmd_ok _ parse_cmd_try => exact (ok0 _ _ try_ok)
    | |- cmd_ok _ parse_cmd_unlet => exact (ok0 _ _ unlet_ok)
    | |- cmd_ok _ parse_cmd_while => exact (ok0 _ _ while_ok)
    | |- cmd_ok _ parse_cmd_syntax => exact (ok0 _ _ syntax_ok)
    | |- cmd_ok _ parse_cmd_append => apply append_ok; vm_compute; reflexivity
    | |- cmd_ok _ parse_cmd_loadkeymap => apply loadkeymap_ok; vm_compute; reflexivity
    | |- cmd_ok _ parse_cmd_lua => apply lua_ok; vm_compute; reflexivity
    | |- cmd_ok _ parse_cmd_let => apply let_ok
    | |- cmd_ok _ (parse_cmd_echo _) => exact (ok0 _ _ (echo_ok _))
    | |- cmd_ok _ parse_wincmd => exact (ok0 _ _ wincmd_ok)
    | |- cmd_ok _ (parse_cmd_lock _) => apply ok0, lock_ok; intros; nd
    end.
Qed.
Lemma assoc_in {A} k (l : list (text * A)) v : assoc_text k l = Some v -> In (k, v) l.
Proof.
  induction l as [|[a b] l IH]; cbn; [discriminate|]. destruct (text_eqb k a) eqn:E0. intros E. injection E as <-. apply text_eqb_eq in E0. subst. auto. eauto.
Qed.
Lemma crel_imp {A A'} mu (Q S : A -> A' -> Prop) o o' : (forall a a', Q a a' -> S a a') -> crel mu Q o o' -> crel mu S o o'.
Proof. intros H [G|G]; [left|right; exact G]. destruct o, o'; cbn [Sim.orel] in *; auto. Qed.
Lemma dispatch_ok k k' st st' : krel k k' -> srel st st' -> (opn = true -> fin (ctx st) = false) -> ea_cmd (ec_ea k) = Some (ec_x k) ->
  crel scl srelf (dispatch k st) (dispatch k' st').
Proof.
  intros K R Hf Hx. unfold dispatch. pose proof K as [_ [_ [_ [_ Kx]]]]. rewrite <- Kx.
  destruct (assoc_text _ _) as [f|] eqn:E; [|left; apply orel_panic]. apply assoc_in in E.
  pose proof table_ok as G. rewrite Forall_forall in G. destruct (G _ E) as [[G1 G2]|[G1 G2]]; cbn [fst snd] in *.
  - subst f. left. apply finish_ok; auto.
  - apply (crel_imp _ srel); [left; auto|]. apply G2; auto.
Qed.

(** ** One command *)

Lemma modifier_range_sim e e' l l' st st' : earel e e' -> sim l l' -> srel st st' ->
  orel srel (parse_cmd_modifier_range e l st) (parse_cmd_modifier_range e' l' st').
Proof.
  intros E L R. pose proof R as [Sm _]. ps Sm. unfold parse_cmd_modifier_range. rewrite (getstr_sim opn F F' h h' _ _ _ _ L (or_introl Sm)). apply add_node_sim; auto. nd.
Qed.
Lemma orel_imp {A A'} (Q S : A -> A' -> Prop) o o' : (forall a a', Q a a' -> S a a') -> orel Q o o' -> orel S o o'.
Proof. intros H. destruct o, o'; cbn [Sim.orel]; auto. Qed.
Lemma command_sim e e' l l' st st' : earel e e' -> sim l l' -> srel st st' -> (opn = true -> fin (ctx st) = false) ->
  crel scl srelf (parse_command neovim e l st) (parse_command neovim e' l' st').
Proof.
  intros E L R Hf. pose proof R as [Sm _]. unfold parse_command. cbv zeta. pose proof (sim_colon _ _ _ _ _ _ _ Sm) as S0. ps S0. rename H into P0.
  pose proof (srel_cur _ _ _ _ _ _ _ _ _ R S0) as R1. pk1 S0. rewrite (sim_peekline _ _ _ _ _ _ _ S0).
  pose proof (ea_cmdpos_rel _ _ _ _ _ _ P0 E) as E1. destruct (ea_fields _ _ _ _ E1) as [_ [_ [-> ->]]].
  assert (G : orel srel (if is_nil (ea_modifiers (ea_set_cmdpos (getpos (skip_white_and_colon (cur st))) e)) && is_nil (ea_range (ea_set_cmdpos (getpos (skip_white_and_colon (cur st))) e))
                   then Ok (with_cur (skip_white_and_colon (cur st)) st) else parse_cmd_modifier_range (ea_set_cmdpos (getpos (skip_white_and_colon (cur st))) e) l (with_cur (skip_white_and_colon (cur st)) st))
                  (if is_nil (ea_modifiers (ea_set_cmdpos (getpos (skip_white_and_colon (cur st))) e)) && is_nil (ea_range (ea_set_cmdpos (getpos (skip_white_and_colon (cur st))) e))
                   then Ok (with_cur (skip_white_and_colon (cur st')) st') else parse_cmd_modifier_range (ea_set_cmdpos (getpos (skip_white_and_colon (cur st'))) e') l' (with_cur (skip_white_and_colon (cur st')) st'))).
  { destruct (_ && _); [exact R1|]. apply modifier_range_sim; auto. }
  apply (orel_imp srel srelf) in G; [|left; auto].
  destruct (peek1 (skip_white_and_colon (cur st))) as [r|]; [|left; exact G]. destruct (r =? _); [left; exact G|]. clear G.
  destruct (find_command_sim neovim _ _ _ _ _ _ _ R1) as [Ef Rf].
  destruct (find_command neovim (with_cur (skip_white_and_colon (cur st)) st)) as [o a] eqn:Efa, (find_command neovim (with_cur (skip_white_and_colon (cur st')) st')) as [o' a'].
  assert (Hfa : opn = true -> fin (ctx a) = false).
  { pose proof (find_ctx neovim (with_cur (skip_white_and_colon (cur st)) st)) as Ec. rewrite Efa in Ec. cbn [snd ctx with_cur] in Ec. rewrite Ec. exact Hf. }
  cbn [fst snd] in Ef, Rf. subst o'. destruct o as [x|]; [|left; apply orel_raise; auto]. pose proof Rf as [Sf _]. pk1 Sf.
  match goal with |- context [ea_set_cmd x ?b _] => remember b as fc eqn:Efc end. clear Efc.
  destruct (negb _ && fc && _); [left; apply orel_raise; auto|].
  assert (S2 : sim (if fc then snd (getn 1 (cur a)) else cur a) (if fc then snd (getn 1 (cur a')) else cur a')) by (destruct fc; [apply sim_getn_s|]; auto).
  assert (S3 : sim (if negb (text_eqb (c_name x) (T "!")) then skip_white (if fc then snd (getn 1 (cur a)) else cur a) else (if fc then snd (getn 1 (cur a)) else cur a))
                   (if negb (text_eqb (c_name x) (T "!")) then skip_white (if fc then snd (getn 1 (cur a')) else cur a') else (if fc then snd (getn 1 (cur a')) else cur a')))
    by (destruct (negb _); [apply sim_white|]; auto).
  revert S3. generalize (if negb (text_eqb (c_name x) (T "!")) then skip_white (if fc then snd (getn 1 (cur a)) else cur a) else (if fc then snd (getn 1 (cur a)) else cur a)),
    (if negb (text_eqb (c_name x) (T "!")) then skip_white (if fc then snd (getn 1 (cur a')) else cur a') else (if fc then snd (getn 1 (cur a')) else cur a')).
  intros c3 c3' S3. ps S3. rename H into P3.
  assert (E2 : earel (ea_set_argpos (getpos c3) (ea_set_cmd x fc (ea_set_cmdpos (getpos (skip_white_and_colon (cur st))) e)))
                     (ea_set_argpos (getpos c3') (ea_set_cmd x fc (ea_set_cmdpos (getpos (skip_white_and_colon (cur st'))) e')))) by (apply ea_argpos_rel, ea_cmd_rel; auto).
  assert (Hx : ea_cmd (ea_set_argpos (getpos c3) (ea_set_cmd x fc (ea_set_cmdpos (getpos (skip_white_and_colon (cur st))) e))) = Some x) by reflexivity.
  revert E2 Hx. generalize (ea_set_argpos (getpos c3) (ea_set_cmd x fc (ea_set_cmdpos (getpos (skip_white_and_colon (cur st))) e))),
                     (ea_set_argpos (getpos c3') (ea_set_cmd x fc (ea_set_cmdpos (getpos (skip_white_and_colon (cur st'))) e'))). intros e2 e2' E2 Hx.
  eapply crel_obind_eq with (Q := SimArgs.wc opn F F' h h' earel).
  { destruct (has_flag _ _); [apply argopt_sim; auto|apply ok_wc; auto]. }
  intros [e3 c4] [e3' c4'] X3 [E3 S4]. cbn [fst snd] in *.
  assert (Hx3 : ea_cmd e3 = Some x) by (destruct (has_flag _ _); [apply argopt_cmd in X3; congruence|injection X3 as <- _; auto]). clear X3.
  eapply crel_obind_eq; [apply write_args_sim; eauto|].
  intros [e4 c5] [e4' c5'] X4 [E4 S5]. cbn [fst snd] in *. apply write_cmd in X4.
  pose proof (read_cmd (c_name x) e4 c5) as X5.
  pose proof (read_args_sim _ _ _ _ _ (c_name x) _ _ _ _ E4 S5) as W. destruct (read_args (c_name x) e4 c5) as [e5 c6], (read_args (c_name x) e4' c5') as [e5' c6']. destruct W as [E5 S6]. cbn [fst snd] in *.
  pose proof (shift_cmd (c_name x) e5 c6) as X6.
  pose proof (shift_args_sim _ _ _ _ _ (c_name x) _ _ _ _ E5 S6) as W. destruct (shift_args (c_name x) e5 c6) as [e6 c7], (shift_args (c_name x) e5' c6') as [e6' c7']. destruct W as [E6 S7]. cbn [fst snd] in *.
  pose proof (argcmd_cmd e6 c7) as X7.
  destruct (ea_fields _ _ _ _ E6) as [_ [-> _]].
  assert (W : SimArgs.wc opn F F' h h' earel (if has_flag (T "EDITCMD") x && negb (ea_usefilter e6) then parse_argcmd e6 c7 else (e6, c7)) (if has_flag (T "EDITCMD") x && negb (ea_usefilter e6) then parse_argcmd e6' c7' else (e6', c7'))).
  { destruct (_ && _); [apply argcmd_sim; auto|split; auto]. }
  destruct (if has_flag (T "EDITCMD") x && negb (ea_usefilter e6) then parse_argcmd e6 c7 else (e6, c7)) as [e7 c8] eqn:X8,
    (if has_flag (T "EDITCMD") x && negb (ea_usefilter e6) then parse_argcmd e6' c7' else (e6', c7')) as [e7' c8']. destruct W as [E7 S8]. cbn [fst snd] in *.
  apply dispatch_ok; [split; [|split; [|split; [|split]]]; auto|apply srel_cur; auto|exact Hfa|cbn [ec_ea ec_x]].
  destruct (_ && _); [rewrite X8 in X7; cbn [fst] in X7|injection X8 as <- _]; congruence.
Qed.
Lemma eof_trail st : is_eof (cur st) = true -> parse_trail st = Ok (with_cur (cur st) st).
Proof. unfold parse_trail. destruct (cur st); [|discriminate]. reflexivity. Qed.
Lemma one_cmd_sim st st' : srel st st' -> (opn = true -> fin (ctx st) = false) ->
  crel scl srelf0 (parse_one_cmd neovim st) (parse_one_cmd neovim st').
Proof.
  intros R Hf. pose proof R as [Sm _]. unfold parse_one_cmd. rewrite (sim_peekn _ _ _ _ _ _ _ _ Sm). destruct (text_eqb _ _).
  { left. all_ Sm l c1 c1'. left. apply sim0_srel0; auto. apply get_sim0; auto. }
  cbv zeta. pose proof (sim_colon _ _ _ _ _ _ _ Sm) as S0. ps S0. pk1 S0. pose proof (srel_cur _ _ _ _ _ _ _ _ _ R S0) as R1.
  destruct (peek1 (skip_white_and_colon (cur st))) as [r|]; [|left; left; apply sim0_srel0; auto; apply get_sim0; auto].
  destruct (r =? _). { left. eapply orel_bind; [apply comment_sim, R1|]. intros a a' Ra. left. apply sim0_srel0; auto. apply get_sim0, Ra. }
  eapply crel_obind; [apply modifiers_sim, S0|]. intros [ms c1] [ms' c1'] [E S1]. cbn [fst snd] in *. subst ms'.
  eapply crel_obind; [apply range_loop_sim, S1|]. intros [rs c2] [rs' c2'] [E S2]. cbn [fst snd] in *. subst rs'.
  eapply crel_bind.
  - apply command_sim; [|exact S0|apply srel_cur; [exact R1|exact S2]|exact Hf]. apply ea_range_rel, ea_mods_rel, ea_line_rel; auto. reflexivity.
  - intros a a' [Ra|[O [A [B G]]]]; left.
    + apply (orel_imp srel0); [left; auto|]. apply trail_sim; auto.
    + rewrite !eof_trail by auto. right. cbn [cur ctx with_cur]. repeat split; tauto.
  - intros O a L. unfold scl in *. destruct (is_eof F) eqn:EF.
    + assert (P : probe F = false) by (destruct F; [reflexivity|discriminate]). rewrite P in *. rewrite lcl_plain in * by auto.
      assert (Hc : is_eof (cur a) = true) by (destruct F; [|discriminate]; destruct (cur a); cbn [clen] in L; auto; lia).
      rewrite eof_trail by auto. cbn [Sim.tame cur ctx with_cur]. rewrite lcl_plain by auto. lia.
    + destruct (probe F) eqn:P.
      * cbn [andb] in *. assert (LF : clen F = 2%nat) by (destruct (probe_form P) as [r0 [p1 [p2 [p3 E0]]]]; rewrite E0; reflexivity).
        unfold lcl in L |- *. rewrite P, LF in *. destruct (cur a) as [p0|[|r0] p0 c0] eqn:Ec; cbn [at_end clen] in L; [| |lia].
        -- rewrite eof_trail by (rewrite Ec; reflexivity). cbn [Sim.tame cur ctx with_cur]. rewrite Ec. cbn [at_end clen]. lia.
        -- destruct c0 as [q0|]; [|cbn [clen] in L; lia]. unfold parse_trail. rewrite Ec. change (skip_white (Cons EOL p0 (Eof q0))) with (Cons EOL p0 (Eof q0)). cbv zeta. cbn [peek ch_of_cell get snd Sim.tame cur ctx with_cur at_end clen] in *. lia.
      * cbn [andb] in *. rewrite lcl_plain in L by auto. destruct (parse_trail a) as [b|e|k|] eqn:Eb; cbn [Sim.tame]; auto; [|split; [exact O|left; exact EF]|left; exact EF].
        rewrite !lcl_plain by auto. rewrite (fin_trail _ _ Eb). apply trail_rem in Eb. lia.
Qed.
End Run.
