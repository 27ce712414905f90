(** C55, C56: the parser tests texts by the regular expressions of its table, and these
    mean what the patterns of the Vim original mean. *)
From Coq Require Import Lia ZifyBool ZifyN.
From Verif Require Import Base Reader Vnode Token Ast Api CharClass CmdParser Regex RegexTable RegexProof RegexVim.

(** * C55 *)

(** All patterns are correct Go patterns, so that none stops the program when it starts ... *)
Theorem C55_compiles : forall k v, In (k, v) patVim2Go -> exists r, go_pattern v = Some r.
Proof.
  assert (H : forallb (fun e => match go_pattern (snd e) with Some _ => true | None => false end) patVim2Go = true)
    by (vm_compute; reflexivity).
  intros k v Hin. rewrite forallb_forall in H. specialize (H _ Hin). cbn [snd] in H.
  destruct (go_pattern v) as [r|]; [eauto|discriminate].
Qed.
Print Assumptions C55_compiles.

(** ... no pattern is listed twice ... *)
Theorem C55_keys : NoDup (map fst patVim2Go).
Proof.
  assert (H : (fix nodup (l : list text) : bool :=
                 match l with [] => true | x :: l' => negb (mem_text x l') && nodup l' end) (map fst patVim2Go) = true)
    by (vm_compute; reflexivity).
  revert H. generalize (map fst patVim2Go) as l. induction l as [|x l IH]; intro H; constructor.
  - intro Hin. apply mem_text_iff in Hin. rewrite Hin in H. discriminate.
  - apply IH. apply andb_true_iff in H. tauto.
Qed.
Print Assumptions C55_keys.

(** ... each pattern that the parser asks for is there, and the test in the model answers, for
    every text, as the Go pattern does. *)
Theorem C55_tests : forall k f, In (k, f) parser_tests ->
  exists v r, pattern_of k = Some v /\ go_pattern v = Some r /\
    forall s, f s = true <-> matches go_word r s.
Proof. intros k f Hin. exact (proj1 (Forall_forall _ _) tests_as_in_table (k, f) Hin). Qed.
Print Assumptions C55_tests.

Example C55_case :
  exists f r, In (T "^[vgslabwt]:$\|^\([vgslabwt]:\)\?[A-Za-z_][0-9A-Za-z_#]*$", f) parser_tests /\
    go_pattern (T "^[vgslabwt]:$|^([vgslabwt]:)?[A-Za-z_][0-9A-Za-z_#]*$") = Some r /\
    f (T "g:foo#bar") = true /\ matches go_word r (T "g:foo#bar") /\
    f (T "x:foo") = false /\ ~ matches go_word r (T "x:foo").
Proof.
  eexists isvarname, _. split; [apply (nth_error_In _ 10); reflexivity|]. split; [vm_compute; reflexivity|].
  split; [reflexivity|]. split; [apply varname_test; reflexivity|]. split; [reflexivity|].
  intro H. apply varname_test in H. discriminate.
Qed.
Example C55_word_case :
  exists f, In (T "\<BANG\>", f) parser_tests /\ f (T "RANGE|BANG|TRLBAR") = true /\ f (T "NOBANG|RANGE") = false.
Proof. exists (has_word (T "BANG")). split; [apply (nth_error_In _ 13); reflexivity|]. split; reflexivity. Qed.

(** * C56 *)

(** All tests but two answer, for every text of printable ASCII characters and tabs, as the Vim
    pattern in the call; the word characters of Vim may be any that agree with the default
    among the ASCII characters. *)
Theorem C56_tests_partial : forall k f, In (k, f) parser_tests ->
  k <> T "\v^d%[elete][lp]$" -> k <> T "^++bad=\(keep\|drop\|.\)\>" ->
  exists v, vim_pattern k = Some v /\
    forall kw s, keywords kw -> plain s -> (f s = true <-> matches kw v s).
Proof.
  intros k f Hin H1 H2. apply tests_as_in_vim; auto. unfold odd_ones. cbn. intros [H|[H|[]]]; auto.
Qed.
Print Assumptions C56_tests_partial.

(** The same of the whole table. *)
Theorem C56_table_partial : forall k t, In (k, t) patVim2Go ->
  k <> T "\v^d%[elete][lp]$" -> k <> T "^++bad=\(keep\|drop\|.\)\>" ->
  exists g v, go_pattern t = Some g /\ vim_pattern k = Some v /\
    forall kw s, keywords kw -> plain s -> (matches go_word g s <-> matches kw v s).
Proof.
  intros k f Hin H1 H2. apply table_as_in_vim; auto. unfold odd_ones. cbn. intros [H|[H|[]]]; auto.
Qed.
Print Assumptions C56_table_partial.

(** The first exception differs in the two texts dl and dp only, ... *)
Theorem C56_delete_partial : exists g v,
  pattern_of (T "\v^d%[elete][lp]$") = Some (T "^d(elete|elet|ele|el|e)[lp]$") /\
  go_pattern (T "^d(elete|elet|ele|el|e)[lp]$") = Some g /\
  vim_pattern (T "\v^d%[elete][lp]$") = Some v /\
  forall kw s, s <> T "dl" -> s <> T "dp" -> (matches go_word g s <-> matches kw v s).
Proof.
  destruct delete_go as [t [g [Ht [Hg G]]]]. destruct delete_vim as [v [Hv V]].
  assert (E : t = T "^d(elete|elet|ele|el|e)[lp]$") by (vm_compute in Ht; congruence). subst t.
  exists g, v. repeat split; auto; rewrite G, V in *; tauto.
Qed.
Print Assumptions C56_delete_partial.

(** ... the second one where a character that is not in a word stands behind ++bad=. *)
Theorem C56_bad_partial : exists v, vim_pattern (T "^++bad=\(keep\|drop\|.\)\>") = Some v /\
  forall kw s, keywords kw -> plain s ->
    (forall r t, s = T "++bad=" ++ r :: t -> go_word r = true) ->
    (re_bad s = true <-> matches kw v s).
Proof.
  destruct bad_vim as [v [Hv V]]. exists v. split; auto. intros kw s Hk Hp Hr. rewrite V by auto. tauto.
Qed.
Print Assumptions C56_bad_partial.

Example C56_case : exists f v, In (T "\<\(XFILE\|FILES\|FILE1\)\>", f) parser_tests /\
  vim_pattern (T "\<\(XFILE\|FILES\|FILE1\)\>") = Some v /\
  plain (T "BANG|FILE1|TRLBAR") /\ keywords default_keyword /\
  f (T "BANG|FILE1|TRLBAR") = true /\ matches default_keyword v (T "BANG|FILE1|TRLBAR").
Proof.
  assert (K : keywords default_keyword).
  { intros c Hc. unfold default_keyword. replace (192 <=? c) with false by lia. apply orb_false_r. }
  assert (P : plain (T "BANG|FILE1|TRLBAR")).
  { intros c Hc. cbn in Hc. repeat destruct Hc as [<-|Hc]; try contradiction; right; lia. }
  destruct (C56_tests_partial (T "\<\(XFILE\|FILES\|FILE1\)\>")
    (fun s => has_word (T "XFILE") s || has_word (T "FILES") s || has_word (T "FILE1") s)) as [v [Hv V]];
    [apply (nth_error_In _ 33); reflexivity|discriminate|discriminate|].
  eexists _, v. split; [|split; [exact Hv|split; [exact P|split; [exact K|split]]]].
  - apply (nth_error_In _ 33). reflexivity.
  - reflexivity.
  - apply V; auto.
Qed.

(** :dp, which the Vim pattern takes for :d with the flag p, is not recognised by the Go pattern:
    ParseFile rejects the command. *)
Theorem C56_delete_refuted :
  (exists v, vim_pattern (T "\v^d%[elete][lp]$") = Some v /\ forall kw, matches kw v (T "dp")) /\
  (exists t g, pattern_of (T "\v^d%[elete][lp]$") = Some t /\ go_pattern t = Some g /\ ~ matches go_word g (T "dp")) /\
  ParseFile (mkSource (T "dp") false) [] None =
    Failed (ErrVimlParser [] 0 1 1 (T "E492: Not an editor command: dp")).
Proof.
  split; [|split].
  - destruct delete_vim as [v [Hv V]]. exists v. split; auto. intro kw. apply V. auto.
  - destruct delete_go as [t [g [Ht [Hg G]]]]. exists t, g. repeat split; auto. rewrite G. discriminate.
  - vm_compute. reflexivity.
Qed.
Print Assumptions C56_delete_refuted.

(** ++bad=?x is an option here, not in the original. *)
Theorem C56_bad_refuted :
  (exists v, vim_pattern (T "^++bad=\(keep\|drop\|.\)\>") = Some v /\
     forall kw, keywords kw -> ~ matches kw v (T "++bad=?x")) /\
  re_bad (T "++bad=?x") = true /\
  exists p q c a, ParseFile (mkSource (T "edit ++bad=?x") false) [] None = Returned (NFile p [NExcmd q c a]) /\
    ae_bad_char a = T "?".
Proof.
  split; [|split].
  - destruct bad_vim as [v [Hv V]]. exists v. split; auto. intros kw Hk H.
    apply V in H as [_ H]; auto.
    + specialize (H (C "?") (T "x") eq_refl). discriminate.
    + intros c Hc. cbn in Hc. repeat destruct Hc as [<-|Hc]; try contradiction; right; lia.
  - reflexivity.
  - do 4 eexists. split; vm_compute; reflexivity.
Qed.
Print Assumptions C56_bad_refuted.

(** Behind a form feed a backslash continues the line here, not in the original. *)
Theorem C56_space_refuted :
  (exists v, vim_pattern (T "^\s*\\") = Some v /\ forall kw, ~ matches kw v ([12] ++ T "\+2")) /\
  re_continuation ([12] ++ T "\+2") = true /\
  exists p q o l r s e x, ParseFile (mkSource (T "let x = 1" ++ [10; 12] ++ T "\+2") false) [] None =
    Returned (NFile p [NLet q o l r s e x]).
Proof.
  split; [|split].
  - destruct continuation_vim as [v [Hv V]]. exists v. split; auto. intros kw H.
    apply V in H as [b [t [E Hb]]]. destruct b as [|c b]; [discriminate|].
    cbn in E. injection E as <- _. discriminate.
  - reflexivity.
  - do 8 eexists. vm_compute. reflexivity.
Qed.
Print Assumptions C56_space_refuted.

(** ++bin ends before a letter that is not ASCII here, not in the original. *)
Theorem C56_letter_refuted :
  keywords default_keyword /\
  (exists v, vim_pattern (T "^++bin\>") = Some v /\ ~ matches default_keyword v (T "++bin" ++ [228])) /\
  re_lit_b (T "++bin") (T "++bin" ++ [228]) = true /\
  exists p q c a, ParseFile (mkSource (T "edit ++bin" ++ [195; 164]) false) [] None = Returned (NFile p [NExcmd q c a]) /\
    ae_force_bin a = 1.
Proof.
  split; [|split; [|split]].
  - intros c Hc. unfold default_keyword. replace (192 <=? c) with false by lia. apply orb_false_r.
  - destruct bin_vim as [v [Hv V]]. exists v. split; auto. intro H.
    apply V in H as [t [E Hb]]. apply app_inv_head in E. subst t. discriminate.
  - reflexivity.
  - do 4 eexists. split; vm_compute; reflexivity.
Qed.
Print Assumptions C56_letter_refuted.
