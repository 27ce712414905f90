(** The names of commands and the cache of found commands. *)
From Coq Require Import Lia ZifyBool ZifyNat ZifyN.
From Verif Require Import Base CharClass Reader Vnode Token Tokenizer ExprParser Cursor Grammar TokSafe Ast Export Join JoinProof Head HeadProof Script Written WrittenProof Lookahead WrittenBrace PrintBack CmdTable CmdParser CmdBase CmdArgs OneLine WrittenScript TargetProof ArgsProof StmtShow.

(** * The names of the commands with a tree of their own *)

Definition stmt_parsers : list text := [
  T "parse_cmd_break"; T "parse_cmd_call"; T "parse_cmd_catch"; T "parse_cmd_continue"; T "parse_cmd_delfunction"; T "parse_cmd_echo";
  T "parse_cmd_echoerr"; T "parse_cmd_echohl"; T "parse_cmd_echomsg"; T "parse_cmd_echon"; T "parse_cmd_else"; T "parse_cmd_elseif";
  T "parse_cmd_endfor"; T "parse_cmd_endfunction"; T "parse_cmd_endif"; T "parse_cmd_endtry"; T "parse_cmd_endwhile"; T "parse_cmd_execute";
  T "parse_cmd_finally"; T "parse_cmd_for"; T "parse_cmd_function"; T "parse_cmd_if"; T "parse_cmd_let"; T "parse_cmd_const";
  T "parse_cmd_lockvar"; T "parse_cmd_return"; T "parse_cmd_throw"; T "parse_cmd_eval"; T "parse_cmd_try"; T "parse_cmd_unlet";
  T "parse_cmd_unlockvar"; T "parse_cmd_while"].

Definition good_word (k : text) : bool :=
  match k with
  | [] => false
  | r :: _ => negb (mem_N r (T "ksp")) && islower r && forallb isalpha k &&
      (match find_modifier modifier_table k with None => true | Some _ => false end) &&
      (text_eqb k (T "del") || negb (re_delete_lp k))
  end.
Definition good_cmd (x : cmd) : bool :=
  negb (has_flag (T "ARGOPT") x) && negb (has_flag (T "EDITCMD") x) && negb (has_flag (T "USERCMD") x) &&
  negb (mem_text (c_name x) [T "write"; T "update"; T "read"; T "!"; T "substitute"; T "smagic"; T "snomagic"; T "<"; T ">"; T "Print"]).
Definition words_of (nv : bool) (x : cmd) : list text :=
  filter (fun k => (c_minlen x <=? N.of_nat (length k)) && match lookup_builtin nv k with Some y => text_eqb (c_name y) (c_name x) && text_eqb (c_parser y) (c_parser x) | None => false end)
    (map (fun n => firstn n (c_name x)) (seq 0 (S (length (c_name x))))).
Lemma words_good nv : forallb (fun x => negb (mem_text (c_parser x) stmt_parsers) || (good_cmd x && forallb good_word (words_of nv x))) (command_table nv) = true.
Proof. destruct nv; vm_compute; reflexivity. Qed.

Lemma first_lookup nv k x : first_match nv k x -> lookup_builtin nv k = Some x.
Proof.
  intros H. destruct (lookup_builtin nv k) as [y|] eqn:E; [apply lookup_first in E; f_equal; eapply first_match_fun; eauto|].
  exfalso. exact (lookup_none _ _ E _ H).
Qed.
Lemma stmt_word nv k x : first_match nv k x -> In (c_parser x) stmt_parsers -> good_word k = true /\ good_cmd x = true.
Proof.
  intros H Hx. pose proof (first_lookup _ _ _ H) as L. destruct H as [[b [a [Ht [[[r Hn] Hm] _]]]] _].
  pose proof (words_good nv) as W. rewrite forallb_forall in W. specialize (W x). rewrite Ht in W.
  specialize (W ltac:(apply in_or_app; cbn; auto)). apply mem_text_In in Hx. rewrite Hx in W. cbn [negb orb] in W. apply andb_true_iff in W. destruct W as [W1 W2].
  split; auto. rewrite forallb_forall in W2. apply W2. unfold words_of. apply filter_In. split.
  - apply in_map_iff. exists (length k). split.
    + rewrite Hn. rewrite firstn_app, firstn_all, Nat.sub_diag. cbn [firstn]. apply app_nil_r.
    + apply in_seq. rewrite Hn, app_length. lia.
  - rewrite L, !text_eqb_rfl. cbn [andb]. rewrite andb_true_r. apply N.leb_le. exact Hm.
Qed.

(** * The head of a command *)

(** What a word stands for. *)
Definition answer (nv : bool) (k : text) : option cmd :=
  if match lookup_builtin nv k with None => starts_upper k | Some x => text_eqb (c_name x) (T "Print") && starts_upper k end
  then Some (user_cmd k) else lookup_builtin nv k.
Lemma answer_lower nv k : starts_upper k = false -> answer nv k = lookup_builtin nv k.
Proof. intros H. unfold answer. rewrite H. destruct (lookup_builtin nv k); [rewrite andb_false_r|]; reflexivity. Qed.
Definition plain_key (k : text) : Prop := starts_upper k = true -> forallb isalpha k = true.
Definition cache_ok (nv : bool) (ch : list (text * option cmd)) : Prop :=
  Forall (fun x => plain_key (fst x) -> snd x = answer nv (fst x)) ch.

Lemma cached nv ch k r : cache_ok nv ch -> assoc_text k ch = Some r -> plain_key k -> r = answer nv k.
Proof.
  induction 1 as [|[k' r'] ch H _ IH]; cbn [assoc_text]; [discriminate|]. destruct (text_eqb k k') eqn:E; auto.
  apply text_eqb_eq in E. subst k'. intros K Hu. inversion K; subst. apply H. exact Hu.
Qed.

Lemma find_stmt nv k x c c1 fr ch : first_match nv k x -> In (c_parser x) stmt_parsers -> spells k c c1 -> ch_in isalpha (peek c1) = false -> cache_ok nv ch ->
  exists ch', find_command nv (mkSt c fr ch) = (Some x, mkSt c1 fr ch') /\ cache_ok nv ch'.
Proof.
  intros Hf Hx Sp Hc1 Hch. pose proof (first_lookup _ _ _ Hf) as L. destruct (stmt_word _ _ _ Hf Hx) as [Hg Hgx].
  destruct k as [|r k]; [discriminate|]. cbn [good_word] in Hg.
  apply andb_true_iff in Hg. destruct Hg as [Hg Hdel]. apply andb_true_iff in Hg. destruct Hg as [Hg Hmod].
  apply andb_true_iff in Hg. destruct Hg as [Hg Hal]. apply andb_true_iff in Hg. destruct Hg as [Hksp Hlow].
  assert (Hup : starts_upper (r :: k) = false) by (cbn; clear - Hlow; unfold islower, isupper, between in *; lia).
  assert (Hname : read_cmd_name c = (r :: k, c1)).
  { unfold read_cmd_name. assert (Hpk : peek1 c = Some r) by (pose proof Sp as X; apply spells_head in X; destruct X as [p [t [-> _]]]; reflexivity).
    rewrite Hpk. cbn [o_is o_in]. cbn [mem_N existsb] in Hksp.
    assert (Hk : r =? C "k" = false) by (clear - Hksp; lia). assert (Hs : r =? C "s" = false) by (clear - Hksp; lia). assert (Hp : r =? C "p" = false) by (clear - Hksp; lia).
    rewrite Hk, Hs. cbn [andb].
    replace (is_special_cmd r) with false by (clear - Hlow; unfold is_special_cmd, islower, between in *; cbn in *; lia).
    replace (text_eqb (peekn 2 c) (T "py")) with false.
    2: { pose proof Sp as X. apply spells_head in X. destruct X as [p [t [-> _]]]. unfold peekn. cbn [getn]. destruct (match t with Cons (R r0) _ t0 => _ | _ => _ end). cbn [fst text_eqb]. cbn. rewrite Hp. reflexivity. }
    unfold read_alpha. rewrite (read_while_exact isalpha (r :: k) c c1 Sp Hal Hc1).
    destruct (text_eqb (r :: k) (T "del")); [reflexivity|]. cbn [negb andb orb] in *. apply negb_true_iff in Hdel. rewrite Hdel. reflexivity. }
  unfold find_command. cbn [cur ctx cache]. rewrite Hname. cbn [is_nil].
  destruct (assoc_text (r :: k) ch) as [y|] eqn:Ea.
  - rewrite (cached _ _ _ _ Hch Ea) by (intros X; congruence). rewrite (answer_lower _ _ Hup), L. exists ch. split; auto.
  - rewrite L, Hup, andb_false_r. exists ((r :: k, Some x) :: ch). split; auto. constructor; auto. intros _. cbn [fst snd]. rewrite (answer_lower _ _ Hup), L. reflexivity.
Qed.

Lemma skip_gap2 w c d : gap w -> spells w c d -> skip_white c = skip_white d.
Proof.
  revert c; induction w as [|r w IH]; intros c Hw Sp; [apply spells_nil in Sp; subst; auto|].
  apply spells_head in Sp. destruct Sp as [p [t [-> Sp]]]. unfold gap in Hw. cbn [forallb] in Hw. apply andb_true_iff in Hw. destruct Hw as [Hr Hw].
  specialize (IH t Hw Sp). unfold skip_white, skip_while in *. cbn [read_while]. rewrite Hr. destruct (read_while iswhite t). exact IH.
Qed.
Lemma skip_lead l c d : lead l -> spells l c d -> skip_white_and_colon c = skip_white_and_colon d.
Proof.
  revert c; induction l as [|r w IH]; intros c Hw Sp; [apply spells_nil in Sp; subst; auto|].
  apply spells_head in Sp. destruct Sp as [p [t [-> Sp]]]. unfold lead in Hw. cbn [forallb] in Hw. apply andb_true_iff in Hw. destruct Hw as [Hr Hw].
  specialize (IH t Hw Sp). unfold skip_white_and_colon, skip_while in *. cbn [read_while]. rewrite Hr. destruct (read_while _ t). exact IH.
Qed.
Lemma skip_not f c : ch_in f (peek c) = false -> skip_while f c = c.
Proof. unfold skip_while. destruct c as [|[|r] p t]; cbn [read_while]; auto. cbn. intros ->. reflexivity. Qed.
Lemma peek_peek1 c r : peek c = CR r -> peek1 c = Some r.
Proof. destruct c as [|[|x] p t]; try discriminate. cbn. congruence. Qed.

Lemma hash_lead l c d r : lead l -> spells l c d -> peek d = CR r -> r <> C "#" -> text_eqb (peekn 2 c) (T "#!") = false.
Proof.
  intros Hl Sp Hd Hr. assert (G : forall x p t, x <> C "#" -> text_eqb (peekn 2 (Cons (R x) p t)) (T "#!") = false).
  { intros x p t Hx. unfold peekn. cbn [getn]. destruct (match t with Cons (R r0) _ t0 => _ | _ => _ end). cbn [fst text_eqb]. cbn. replace (x =? 35) with false by (cbn in Hx; lia). reflexivity. }
  destruct l as [|x l].
  - apply spells_nil in Sp. subst d. destruct c as [|[|y] p t]; try discriminate. inversion Hd; subst y. auto.
  - apply spells_head in Sp. destruct Sp as [p [t [-> _]]]. apply G. unfold lead in Hl. cbn [forallb] in Hl. apply andb_true_iff in Hl. destruct Hl as [Hl _].
    intros ->. discriminate.
Qed.

Lemma modifiers_none n k c c1 : spells k c c1 -> some_of isalpha k -> ch_in isalpha (peek c1) = false -> find_modifier modifier_table k = None -> modifiers_loop (S n) c = Ok ([], c).
Proof.
  intros Sp [Hn Ha] Hc Hm. cbn [modifiers_loop].
  assert (E : o_in isdigit (peek1 c) = false).
  { destruct k as [|r k]; [congruence|]. apply spells_head in Sp. destruct Sp as [p [t [-> _]]]. cbn in *. apply andb_true_iff in Ha. apply alpha_digit. tauto. }
  rewrite E. unfold read_alpha. rewrite (read_while_exact isalpha k c c1 Sp Ha Hc), Hm. reflexivity.
Qed.
