(** ParseFile as a whole. *)
From Verif Require Import Base Utf8 CharClass Reader Vnode Token Ast Cursor Grammar Fault ExprSafe
  ExprParser CmdParser Export ExportSafe Script CmdBase CmdLoop ScriptExport Api ApiExpr.

Definition neovim_of (opt : option parse_option) : bool :=
  match opt with Some o => o_neovim o | None => false end.

(** The result of ParseFile: the export of a derivation of the script, a located error, or
    the panic of an overflowing count. *)
Lemma ParseFile_cases src file opt :
  (exists v p b, script (neovim_of opt) (open_source src) v /\
     new_ast file v = Ok (NFile p b) /\ ParseFile src file opt = Returned (NFile p b)) \/
  (exists msg s, sfx s (open_source src) /\
     ParseFile src file opt = Failed (ErrVimlParser file (p_i (getpos s)) (p_lnum (getpos s)) (p_col (getpos s)) msg)) \/
  (exists k, overflow (open_source src) k /\ ParseFile src file opt = Failed (ErrOther k)).
Proof.
  pose proof (vim_parse_safe (neovim_of opt) _ (open_source_wf src)) as H.
  unfold ParseFile, parse_to_ast. fold (neovim_of opt).
  destruct (vim_parse (neovim_of opt) (open_source src)) as [v|e|k|]; cbn [csafe] in H; try contradiction.
  - left. destruct (file_exports file _ _ _ H) as [p [b Hn]]. exists v, p, b.
    split; [auto|]. split; [auto|]. cbn [bind]. rewrite Hn. reflexivity.
  - right; left. destruct H as [s [Hs [He Hx]]]. exists (e_msg e), s. split; auto. cbn [bind recovered].
    rewrite He at 1 2 3. reflexivity.
  - right; right. exists k. auto.
Qed.

Lemma ParseFile_returns src file opt : ParseFile src file opt <> NoResult.
Proof.
  destruct (ParseFile_cases src file opt) as [[v [p [b [_ [_ ->]]]]]|[[msg [s [_ ->]]]|[k [_ ->]]]]; discriminate.
Qed.

Lemma ParseFile_errors src file opt :
  (exists p body, ParseFile src file opt = Returned (NFile p body)) \/
  (exists off line col msg, ParseFile src file opt = Failed (ErrVimlParser file off line col msg)) \/
  (exists s, Forall (fun d => isdigit d = true) s /\ s <> [] /\ 2147483647 < decimal s /\
     ParseFile src file opt = Failed (ErrOther (PStr2nr s))).
Proof.
  destruct (ParseFile_cases src file opt) as [[v [p [b [_ [_ ->]]]]]|[[msg [s [_ ->]]]|[k [Hk ->]]]].
  - left; eauto.
  - right; left; eauto 10.
  - right; right. destruct Hk as [s [a [b [-> [_ [_ [[Hs Hf] Hd]]]]]]]. exists s. split; auto. apply Forall_forall. apply forallb_forall; auto.
Qed.

Lemma ParseFile_fault src file opt f off line col msg : ParseFile src file opt = Failed (ErrVimlParser f off line col msg) ->
  exists s, sfx s (open_source src) /\ off = p_i (getpos s) /\ line = p_lnum (getpos s) /\ col = p_col (getpos s) /\
    report (neovim_of opt) (open_source src) s msg.
Proof.
  pose proof (vim_parse_safe (neovim_of opt) _ (open_source_wf src)) as H.
  unfold ParseFile, parse_to_ast. fold (neovim_of opt).
  destruct (vim_parse (neovim_of opt) (open_source src)) as [v|e|k|]; cbn [csafe] in H; try contradiction.
  - destruct (file_exports file _ _ _ H) as [p [b Hn]]. cbn [bind]. rewrite Hn. discriminate.
  - destruct H as [s [Hs [He Hx]]]. cbn [bind recovered]. intros K. exists s. split; [auto|].
    rewrite He in K. inversion K; subst. auto.
  - discriminate.
Qed.
