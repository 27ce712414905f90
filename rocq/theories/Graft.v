(** Nothing the parser does depends on the commands already collected at the bottom of the
    context; and on the cache of found commands only through the commands found. *)
From Coq Require Import Lia ZifyBool ZifyNat ZifyN.
From Verif Require Import Base CharClass Reader Vnode Tokenizer ExprParser CmdTable CmdParser
  Cursor Grammar TokSafe ExprSafe Script CmdBase CmdArgs HeadProof CmdPieces CmdOpen CmdSafe CmdLoop Sim SimCmd SimArgs SimRun.

(** The same outcome up to [Q]. *)
Definition gout {A A'} (Q : A -> A' -> Prop) (o : outcome A) (o' : outcome A') : Prop :=
  match o, o' with
  | Ok a, Ok a' => Q a a'
  | PErr e, PErr e' => e = e'
  | Panic k, Panic k' => k = k'
  | OutOfFuel, OutOfFuel => True
  | _, _ => False
  end.
Lemma gbind_eq {A B B'} (Q : B -> B' -> Prop) (m : outcome A) k k' :
  (forall a, m = Ok a -> gout Q (k a) (k' a)) -> gout Q (bind m k) (bind m k').
Proof. destruct m; cbn; auto. Qed.
Lemma gbind {A A' B B'} (P : A -> A' -> Prop) (Q : B -> B' -> Prop) m m' k k' :
  gout P m m' -> (forall a a', P a a' -> gout Q (k a) (k' a')) -> gout Q (bind m k) (bind m' k').
Proof. destruct m, m'; cbn; intros; try contradiction; subst; auto. Qed.
Lemma gout_raise {A A'} (Q : A -> A' -> Prop) m p : gout Q (raise m p) (raise m p).
Proof. reflexivity. Qed.

Section Graft.
Context (p0 : pos) (pre : list vnode) (CR : list (text * option cmd) -> list (text * option cmd) -> Prop).

(** The bottom of the context with another place and with commands before its own. *)
Definition base (f : frame) : frame := mkFrame (f_kind f) p0 (f_ea f) (pre ++ f_body f).
Fixpoint graft (fs : list frame) : list frame :=
  match fs with
  | [] => []
  | f :: r => match r with [] => [base f] | _ => f :: graft r end
  end.
Inductive grel : pstate -> pstate -> Prop :=
| gr_intro c fr ch ch' : fr <> [] -> CR ch ch' -> grel (mkSt c fr ch) (mkSt c (graft fr) ch').

Lemma grel_cur c st st' : grel st st' -> grel (with_cur c st) (with_cur c st').
Proof. intros []. unfold with_cur. cbn [ctx cache]. constructor; auto. Qed.
Lemma cur_g st st' : grel st st' -> cur st' = cur st.
Proof. intros []. reflexivity. Qed.
Lemma graft_cons f r : exists f', graft (f :: r) = f' :: graft r /\ f_kind f' = f_kind f /\ (r <> [] -> f' = f).
Proof. destruct r; cbn [graft]; eexists; (split; [reflexivity|]); cbn; split; auto. congruence. Qed.
Lemma top_g st st' : grel st st' -> gout (fun f f' => f_kind f' = f_kind f) (top_frame st) (top_frame st').
Proof.
  intros [c fr ch ch' _ _]. unfold top_frame. cbn [ctx]. destruct fr as [|f r]; [reflexivity|]. destruct (graft_cons f r) as [f' [-> [E _]]]. exact E.
Qed.
Lemma base_add n f : base (add_body n f) = add_body n (base f).
Proof. unfold base, add_body. cbn. rewrite app_assoc. reflexivity. Qed.
Lemma graft_add n f r : graft (add_body n f :: r) = match graft (f :: r) with g :: r' => add_body n g :: r' | [] => [] end.
Proof. destruct r; cbn [graft]; [rewrite base_add|]; reflexivity. Qed.
Lemma graft_ne f r : graft (f :: r) <> [].
Proof. destruct r; discriminate. Qed.
Lemma add_node_g n st st' : grel st st' -> gout grel (add_node n st) (add_node n st').
Proof.
  intros [c fr ch ch' N K]. unfold add_node. cbn [ctx]. destruct fr as [|f r]; [reflexivity|].
  destruct (graft (f :: r)) as [|g r'] eqn:E; [destruct (graft_ne _ _ E)|]. unfold with_ctx. cbn [cur cache gout].
  replace (add_body n g :: r') with (graft (add_body n f :: r)) by (rewrite graft_add, E; reflexivity). constructor; auto; discriminate.
Qed.
Lemma push_g k p e st st' : grel st st' -> grel (push_context k p e st) (push_context k p e st').
Proof.
  intros [c fr ch ch' N K]. unfold push_context, with_ctx. cbn [cur ctx cache].
  replace (mkFrame k p e [] :: graft fr) with (graft (mkFrame k p e [] :: fr)) by (destruct fr; [congruence|reflexivity]). constructor; auto; discriminate.
Qed.
Lemma pop_part_g st st' : grel st st' -> gout grel (pop_part st) (pop_part st').
Proof.
  intros [c fr ch ch' N K]. unfold pop_part. cbn [ctx]. destruct fr as [|f [|g r]]; [reflexivity|reflexivity|].
  cbn [graft]. fold graft. assert (Z : forall k, graft (mkFrame k (f_pos g) (f_ea g) (f_body g) :: r) =
     match graft (g :: r) with g' :: r' => mkFrame k (f_pos g') (f_ea g') (f_body g') :: r' | [] => [] end) by (intros k; destruct r; reflexivity).
  cbn [graft] in Z. destruct (match r with [] => [base g] | _ :: _ => g :: graft r end) as [|g' r'] eqn:E; [destruct r; discriminate|].
  assert (Kg : f_kind g' = f_kind g) by (destruct r; injection E as <- _; reflexivity). rewrite Kg.
  destruct (f_kind f); try reflexivity; destruct (f_kind g); try reflexivity; unfold with_ctx; cbn [cur cache gout]; rewrite <- Z; constructor; auto; discriminate.
Qed.
Lemma pop_block_g n st st' : grel st st' -> gout grel (pop_block n st) (pop_block n st').
Proof.
  intros [c fr ch ch' N K]. unfold pop_block. cbn [ctx]. destruct fr as [|f [|g r]]; [reflexivity|reflexivity|].
  cbn [graft]. pose proof (graft_add) as Z. specialize (fun n => Z n g r). cbn [graft] in Z.
  destruct (match r with [] => [base g] | _ :: _ => g :: graft r end) as [|g' r'] eqn:E; [destruct r; discriminate|].
  destruct (close_frame f n) as [v|]; [|reflexivity]. unfold with_ctx. cbn [cur cache gout]. rewrite <- Z. constructor; auto; discriminate.
Qed.
Lemma in_context_g g st st' : grel st st' -> in_context g st' = in_context g st.
Proof.
  intros [c fr ch ch' _ _]. unfold in_context. cbn [ctx]. induction fr as [|f r IH]; [reflexivity|].
  destruct (graft_cons f r) as [f' [-> [E _]]]. cbn [existsb]. rewrite E, IH. reflexivity.
Qed.
Lemma check_g s p f f' : f_kind f' = f_kind f -> check_missing_if_try_loops s p f' = check_missing_if_try_loops s p f.
Proof. intros E. unfold check_missing_if_try_loops. rewrite E. reflexivity. Qed.

(** ** The commands *)

Local Ltac dest :=
  match goal with
  | |- gout _ (bind ?m _) (bind ?m _) => apply gbind_eq; intros
  | |- gout _ (match ?x with _ => _ end) (match ?x with _ => _ end) => destruct x
  end.
Local Ltac g1 :=
  cbv zeta;
  first
  [ dest
  | apply gout_raise
  | apply add_node_g
  | apply pop_part_g
  | apply pop_block_g
  | apply grel_cur
  | apply push_g
  | assumption
  | match goal with |- gout _ (Ok _) (Ok _) => cbn [gout] end
  | reflexivity ].
Definition gcmd (f : ectx -> pstate -> outcome pstate) : Prop := forall k st st', grel st st' -> gout grel (f k st) (f k st').
Local Ltac gc f := intros k st st' G; unfold f; rewrite ?(cur_g _ _ G); repeat g1.

Lemma comment_g st st' : grel st st' -> gout grel (parse_comment st) (parse_comment st').
Proof. intros G. unfold parse_comment. rewrite (cur_g _ _ G). repeat g1. Qed.
Lemma trail_g st st' : grel st st' -> gout grel (parse_trail st) (parse_trail st').
Proof.
  intros G. unfold parse_trail. rewrite (cur_g _ _ G). repeat g1.
  eapply gbind; [apply comment_g, grel_cur, G|]. intros a a' Ga. rewrite (cur_g _ _ Ga). repeat g1.
Qed.
Lemma common_g : gcmd parse_cmd_common. Proof. gc parse_cmd_common. Qed.
Lemma append_g : gcmd parse_cmd_append. Proof. gc parse_cmd_append. Qed.
Lemma loadkeymap_g : gcmd parse_cmd_loadkeymap. Proof. gc parse_cmd_loadkeymap. Qed.
Lemma lua_g : gcmd parse_cmd_lua. Proof. gc parse_cmd_lua. Qed.
Lemma finish_g : gcmd parse_cmd_finish.
Proof.
  intros k st st' G. unfold parse_cmd_finish. eapply gbind; [apply common_g, G|]. intros a a' Ga. eapply gbind; [apply top_g, Ga|].
  intros f f' E. rewrite E, (cur_g _ _ Ga). repeat g1.
Qed.
Local Ltac gc2 f := intros k st st' G; unfold f; rewrite ?(cur_g _ _ G); repeat (first [apply common_g; exact G | g1]).
Lemma function_g : gcmd parse_cmd_function. Proof. gc2 parse_cmd_function. Qed.
Lemma delfunction_g : gcmd parse_cmd_delfunction. Proof. gc parse_cmd_delfunction. Qed.
Lemma return_g : gcmd parse_cmd_return. Proof. intros k st st' G. unfold parse_cmd_return. rewrite (in_context_g _ _ _ G), (cur_g _ _ G). repeat g1. Qed.
Lemma call_g : gcmd parse_cmd_call. Proof. gc parse_cmd_call. Qed.
Lemma heredoc_g k st st' : grel st st' -> gout (fun a a' => fst a' = fst a /\ grel (snd a) (snd a')) (parse_heredoc k st) (parse_heredoc k st').
Proof.
  intros G. unfold parse_heredoc. rewrite (cur_g _ _ G). do 4 g1. apply gout_raise. eapply gbind; [apply trail_g, grel_cur, G|].
  intros b b' Gb. rewrite (cur_g _ _ Gb). repeat g1. cbn [fst snd]. split; auto. apply grel_cur; auto.
Qed.
Lemma let_g : gcmd parse_cmd_let.
Proof.
  gc2 parse_cmd_let. eapply gbind; [apply heredoc_g, grel_cur, G|]. intros [h b] [h' b'] [E Gb]. cbn [fst snd] in *. subst. repeat g1.
Qed.
Lemma const_g : gcmd parse_cmd_const. Proof. gc2 parse_cmd_const. Qed.
Lemma unlet_g : gcmd parse_cmd_unlet. Proof. gc parse_cmd_unlet. Qed.
Lemma lock_g mk : gcmd (parse_cmd_lock mk). Proof. gc parse_cmd_lock. Qed.
Lemma if_g : gcmd parse_cmd_if. Proof. gc parse_cmd_if. Qed.
Lemma while_g : gcmd parse_cmd_while. Proof. gc parse_cmd_while. Qed.
Lemma for_g : gcmd parse_cmd_for. Proof. gc parse_cmd_for. Qed.
Lemma try_g : gcmd parse_cmd_try. Proof. gc parse_cmd_try. Qed.
Local Ltac gtop f := intros k st st' G; unfold f; eapply gbind; [apply top_g, G|]; let E := fresh "E" in intros ? ? E; rewrite ?(check_g _ _ _ _ E), ?E, ?(cur_g _ _ G); repeat g1.
Lemma endfunction_g : gcmd parse_cmd_endfunction. Proof. gtop parse_cmd_endfunction. Qed.
Lemma endwhile_g : gcmd parse_cmd_endwhile. Proof. gtop parse_cmd_endwhile. Qed.
Lemma endfor_g : gcmd parse_cmd_endfor. Proof. gtop parse_cmd_endfor. Qed.
Lemma part_g (b : bool) st st' : grel st st' -> gout grel (if b then Ok st else pop_part st) (if b then Ok st' else pop_part st').
Proof. intros G. repeat g1. Qed.
Local Ltac gpart := eapply (gbind grel); [first [apply part_g; assumption | apply pop_part_g; assumption | assumption]|].
Lemma elseif_g : gcmd parse_cmd_elseif.
Proof. gtop parse_cmd_elseif; cbn [is_if]; gpart; intros b b' Gb; rewrite (cur_g _ _ Gb); repeat g1. Qed.
Lemma else_g : gcmd parse_cmd_else.
Proof. gtop parse_cmd_else; cbn [is_if]; gpart; intros b b' Gb; repeat g1. Qed.
Lemma endif_g : gcmd parse_cmd_endif.
Proof. gtop parse_cmd_endif; gpart; intros b b' Gb; repeat g1. Qed.
Lemma catch_g : gcmd parse_cmd_catch.
Proof. gtop parse_cmd_catch; cbn [is_try]; gpart; intros b b' Gb; rewrite (cur_g _ _ Gb); repeat g1. Qed.
Lemma finally_g : gcmd parse_cmd_finally.
Proof. gtop parse_cmd_finally; cbn [is_try]; gpart; intros b b' Gb; repeat g1. Qed.
Lemma endtry_g : gcmd parse_cmd_endtry.
Proof. gtop parse_cmd_endtry; gpart; intros b b' Gb; repeat g1. Qed.
Lemma continue_g : gcmd parse_cmd_continue. Proof. intros k st st' G. unfold parse_cmd_continue. rewrite !(in_context_g _ _ _ G). repeat g1. Qed.
Lemma break_g : gcmd parse_cmd_break. Proof. intros k st st' G. unfold parse_cmd_break. rewrite !(in_context_g _ _ _ G). repeat g1. Qed.
Lemma throw_g : gcmd parse_cmd_throw. Proof. gc parse_cmd_throw. Qed.
Lemma eval_g : gcmd parse_cmd_eval. Proof. gc parse_cmd_eval. Qed.
Lemma echo_g e : gcmd (parse_cmd_echo e). Proof. gc parse_cmd_echo. Qed.
Lemma echohl_g : gcmd parse_cmd_echohl. Proof. gc parse_cmd_echohl. Qed.
Lemma execute_g : gcmd parse_cmd_execute. Proof. gc parse_cmd_execute. Qed.
Lemma wincmd_g : gcmd parse_wincmd. Proof. gc parse_wincmd. Qed.
Lemma syntax_g : gcmd parse_cmd_syntax. Proof. gc parse_cmd_syntax. Qed.
Lemma table_g : Forall (fun e => gcmd (snd e)) parser_table.
Proof.
  unfold parser_table. repeat (apply Forall_cons; [cbn [snd]|]); [..|apply Forall_nil];
  match goal with
    | |- gcmd parse_cmd_common => exact common_g
    | |- gcmd parse_cmd_append => exact append_g
    | |- gcmd parse_cmd_loadkeymap => exact loadkeymap_g
    | |- gcmd parse_cmd_lua => exact lua_g
    | |- gcmd parse_cmd_finish => exact finish_g
    | |- gcmd parse_cmd_function => exact function_g
    | |- gcmd parse_cmd_delfunction => exact delfunction_g
    | |- gcmd parse_cmd_return => exact return_g
    | |- gcmd parse_cmd_call => exact call_g
    | |- gcmd parse_cmd_let => exact let_g
    | |- gcmd parse_cmd_const => exact const_g
    | |- gcmd parse_cmd_unlet => exact unlet_g
    | |- gcmd parse_cmd_if => exact if_g
    | |- gcmd parse_cmd_while => exact while_g
    | |- gcmd parse_cmd_for => exact for_g
    | |- gcmd parse_cmd_try => exact try_g
    | |- gcmd parse_cmd_endfunction => exact endfunction_g
    | |- gcmd parse_cmd_endwhile => exact endwhile_g
    | |- gcmd parse_cmd_endfor => exact endfor_g
    | |- gcmd parse_cmd_elseif => exact elseif_g
    | |- gcmd parse_cmd_else => exact else_g
    | |- gcmd parse_cmd_endif => exact endif_g
    | |- gcmd parse_cmd_catch => exact catch_g
    | |- gcmd parse_cmd_finally => exact finally_g
    | |- gcmd parse_cmd_endtry => exact endtry_g
    | |- gcmd parse_cmd_continue => exact continue_g
    | |- gcmd parse_cmd_break => exact break_g
    | |- gcmd parse_cmd_throw => exact throw_g
    | |- gcmd parse_cmd_eval => exact eval_g
    | |- gcmd parse_cmd_echohl => exact echohl_g
    | |- gcmd parse_cmd_execute => exact execute_g
    | |- gcmd parse_cmd_syntax => exact syntax_g
    | |- gcmd (parse_cmd_lock _) => apply lock_g
    | |- gcmd (parse_cmd_echo _) => apply echo_g
    | |- gcmd parse_wincmd => exact wincmd_g
    end.
Qed.
Lemma dispatch_g : gcmd dispatch.
Proof.
  intros k st st' G. unfold dispatch. destruct (assoc_text _ _) as [f|] eqn:E; [|reflexivity]. apply SimRun.assoc_in in E.
  pose proof table_g as Z. rewrite Forall_forall in Z. exact (Z _ E k st st' G).
Qed.

(** ** One command, and all of them *)

Context (neovim : bool) (B : cursor) (HB : wf B).
(** The same command is found, whatever the caches. *)
Definition same_found (c : cursor) : Prop := forall fr fr' ch ch', CR ch ch' ->
  let r := find_command neovim (mkSt c fr ch) in
  let r' := find_command neovim (mkSt c fr' ch') in
  fst r' = fst r /\ cur (snd r') = cur (snd r) /\ CR (cache (snd r)) (cache (snd r')).
Context (HF : forall c, sfx c B -> same_found c).
Lemma find_g st st' : sfx (cur st) B -> grel st st' ->
  fst (find_command neovim st') = fst (find_command neovim st) /\ grel (snd (find_command neovim st)) (snd (find_command neovim st')).
Proof.
  intros Sx G. destruct G as [c fr ch ch' N K]. cbn [cur] in Sx. destruct (HF c Sx fr (graft fr) ch ch' K) as [E1 [E2 E3]]. split; auto.
  pose proof (SimRun.find_ctx neovim (mkSt c fr ch)) as X1. pose proof (SimRun.find_ctx neovim (mkSt c (graft fr) ch')) as X2.
  destruct (snd (find_command neovim (mkSt c fr ch))) as [c1 f1 h1], (snd (find_command neovim (mkSt c (graft fr) ch'))) as [c2 f2 h2].
  cbn [cur ctx cache] in *. subst. constructor; auto.
Qed.
Lemma command_g e l st st' : sfx (cur st) B -> grel st st' -> gout grel (parse_command neovim e l st) (parse_command neovim e l st').
Proof.
  intros Sx G. unfold parse_command. rewrite (cur_g _ _ G). cbv zeta.
  assert (Sc : sfx (skip_white_and_colon (cur st)) B) by (eapply sfx_trans; [apply skip_while_sfx|exact Sx]).
  generalize dependent (skip_white_and_colon (cur st)). intros c0 Sc. pose proof (grel_cur c0 _ _ G) as G0.
  assert (Z : gout grel (if is_nil (ea_modifiers (ea_set_cmdpos (getpos c0) e)) && is_nil (ea_range (ea_set_cmdpos (getpos c0) e)) then Ok (with_cur c0 st) else parse_cmd_modifier_range (ea_set_cmdpos (getpos c0) e) l (with_cur c0 st))
    (if is_nil (ea_modifiers (ea_set_cmdpos (getpos c0) e)) && is_nil (ea_range (ea_set_cmdpos (getpos c0) e)) then Ok (with_cur c0 st') else parse_cmd_modifier_range (ea_set_cmdpos (getpos c0) e) l (with_cur c0 st'))).
  { destruct (_ && _); [exact G0|]. unfold parse_cmd_modifier_range. cbn [cur with_cur]. apply add_node_g; auto. }
  destruct (peek1 c0); [|exact Z]. destruct (n =? _); [exact Z|]. clear Z.
  destruct (find_g (with_cur c0 st) (with_cur c0 st')) as [E Gf]; [exact Sc|exact G0|].
  destruct (find_command neovim (with_cur c0 st)) as [o a], (find_command neovim (with_cur c0 st')) as [o' a']. cbn [fst snd] in *. subst o'.
  destruct o as [x|]; [|reflexivity]. rewrite (cur_g _ _ Gf).
  repeat g1. apply dispatch_g, grel_cur, Gf.
Qed.
Lemma one_g st st' : sfx (cur st) B -> grel st st' -> gout grel (parse_one_cmd neovim st) (parse_one_cmd neovim st').
Proof.
  intros Sx G. unfold parse_one_cmd. rewrite (cur_g _ _ G). destruct (text_eqb _ _); [apply grel_cur; auto|]. cbv zeta.
  assert (Sc : sfx (skip_white_and_colon (cur st)) B) by (eapply sfx_trans; [apply skip_while_sfx|exact Sx]).
  generalize dependent (skip_white_and_colon (cur st)). intros c0 Sc. pose proof (grel_cur c0 _ _ G) as G0.
  destruct (peek1 c0); [|apply grel_cur; auto]. destruct (n =? _).
  { eapply gbind; [apply comment_g, G0|]. intros a a' Ga. rewrite (cur_g _ _ Ga). apply grel_cur; auto. }
  apply gbind_eq. intros [ms c1] E1. pose proof (modifiers_safe neovim B (S (clen c0)) c0 Sc (Nat.lt_succ_diag_r _)) as M. unfold parse_command_modifiers in E1.
  rewrite E1 in M. destruct M as [M _]. assert (S1 : sfx c1 B) by (eapply sfx_trans; [apply same_line_sfx; exact M|exact Sc]).
  apply gbind_eq. intros [rs c2] E2. pose proof (parse_range_safe B HB c1 S1) as M2. rewrite E2 in M2. destruct M2 as [M2 _].
  eapply gbind; [apply command_g|].
  { cbn [cur with_cur]. eapply sfx_trans; [apply same_line_sfx; exact M2|exact S1]. }
  { apply grel_cur; auto. }
  intros a a' Ga. apply trail_g; auto.
Qed.
Lemma loop_g n : forall st st', CmdLoop.inv neovim B st -> grel st st' -> gout grel (cmds_loop neovim n st) (cmds_loop neovim n st').
Proof.
  induction n as [|n IH]; intros st st' I G; [exact Logic.I|]. cbn [cmds_loop]. rewrite (cur_g _ _ G). destruct (is_eof (cur st)) eqn:E; [exact G|].
  pose proof (one_safe neovim B HB st I E) as O. pose proof (one_g st st' (inv_sfx _ _ _ I) G) as G1.
  destruct (parse_one_cmd neovim st) as [a| | |], (parse_one_cmd neovim st') as [a'| | |]; try contradiction; auto.
  cbn [bind]. apply IH; auto. apply O.
Qed.
End Graft.
