(** Property theorems: commands. The vocabulary is in Head.v (the head of a command line),
    CmdSpec.v (the same for the nodes of the AST), Script.v and Grammar.v (scripts). *)
From Coq Require Import Lia.
From Verif Require Import Base Utf8 CharClass Reader Vnode CmdTable Token Ast Api Export CmdParser Places Nodes LinesProof
  Script ApiFile Head CmdSpec CmdArgs HeadProof NodeFacts NodeHead OneLine FullNames PropAst.

(** C43: every AST is the export of a tree that the grammar of scripts derives from the
    whole input. *)
Theorem C43_script : forall src file opt root,
  ParseFile src file opt = Returned root ->
  exists v, script (with_neovim opt) (open_source src) v /\ new_ast file v = Ok root.
Proof.
  intros src file opt root H. destruct (ParseFile_cases src file opt) as [[v [p [b [H1 [H2 H3]]]]]|[[msg [s [_ H3]]]|[k [_ H3]]]];
    rewrite H3 in H; inversion H; subst. exists v. split; auto.
Qed.
Print Assumptions C43_script.
Example C43_case : exists p c d, ParseFile (mkSource (T "if a | echo 1" ++ [10] ++ T "else" ++ [10] ++ T "endif" ++ [10] ++ T "quit") false) [] None =
  Returned (NFile p [c; d]).
Proof. do 3 eexists. vm_compute. reflexivity. Qed.

(** C44: the head of every command. Modifiers, Range, Cmd, Forceit and the options of its
    ExArg are what the text of its line says, and LinePos, CmdPos and ArgPos are in front of
    the modifiers, the name and the arguments. *)
Theorem C44_command_line : forall bs fails file opt root cells n e x,
  ParseFile (mkSource bs fails) file opt = Returned root -> source_cells bs cells ->
  within root n -> nea n = Some e -> ae_cmd e = Some x ->
  exists lead w bang white opts rest, command_line cells (with_neovim opt) e x lead w bang white opts rest.
Proof.
  intros bs fails file opt root cells n e x HP HC H1 H2 H3. pose proof (node_head _ _ _ _ _ HP _ HC _ _ H1 H2) as K.
  rewrite H3 in K. exact K.
Qed.
Print Assumptions C44_command_line.
Theorem C44_no_command : forall bs fails file opt root cells n e,
  ParseFile (mkSource bs fails) file opt = Returned root -> source_cells bs cells ->
  within root n -> nea n = Some e -> ae_cmd e = None -> exists lead rest, lead_line cells e lead rest.
Proof.
  intros bs fails file opt root cells n e HP HC H1 H2 H3. pose proof (node_head _ _ _ _ _ HP _ HC _ _ H1 H2) as K.
  rewrite H3 in K. exact K.
Qed.
Print Assumptions C44_no_command.
Example C44_case : exists root n,
  accepted (T "silent 2verbose '<,/x/+1s:g/y/z/") false [] root /\ within root n /\
  match n with
  | NExcmd _ _ e => match ae_modifiers e, ae_range e, ae_cmd e with
    | [m1; m2], [_; _; _; _], Some x => text_eqb (c_name x) (T "substitute") && text_eqb (m_name m2) (T "verbose")
    | _, _, _ => false end
  | _ => false end = true.
Proof. apply (found _ _ None 9). vm_compute. reflexivity. Qed.

(** C45: Forceit tells whether a "!" follows the name of the command directly, but for
    :substitute, :smagic and :snomagic, where "!" belongs to the arguments, and :read,
    where it is a filter. *)
Theorem C45_bang : forall bs fails file opt root cells n e x cp s post,
  ParseFile (mkSource bs fails) file opt = Returned root -> source_cells bs cells ->
  within root n -> nea n = Some e -> ae_cmd e = Some x ->
  ae_cmdpos e = Some cp -> line_from cells cp s post -> s <> [] ->
  exists w rest, s = w ++ rest /\
    (resolves (with_neovim opt) s w x \/ cut_name (with_neovim opt) s w x) /\
    (ae_forceit e = true <->
     begins (T "!") rest /\ ~ In (c_name x) [T "substitute"; T "smagic"; T "snomagic"; T "read"]).
Proof.
  intros bs fails file opt root cells n e x cp s post HP HC H1 H2 H3 H4 H5 Hs.
  destruct (node_line _ _ _ _ _ HP _ HC _ _ _ _ _ _ H1 H2 H3 H4 H5 Hs) as [lead [w [bang [white [opts [rest [-> K]]]]]]].
  destruct K as [? [? [? [? [_ [_ [_ [_ [_ [_ K]]]]]]]]]]. exists w, (bang ++ white ++ opts ++ rest). split; auto.
  split. exact (ht_word _ _ _ _ _ _ _ _ _ K). exact (head_bang _ _ _ _ _ _ _ _ _ K).
Qed.
Print Assumptions C45_bang.
(** Only commands that take a "!" have it. *)
Theorem C45_allowed : forall bs fails file opt root n e x,
  ParseFile (mkSource bs fails) file opt = Returned root ->
  within root n -> nea n = Some e -> ae_cmd e = Some x -> ae_forceit e = true ->
  flag (T "BANG") x = true \/ flag (T "USERCMD") x = true.
Proof.
  intros bs fails file opt root n e x HP H1 H2 H3 H4. destruct (NodeText.source_exists bs) as [cells HC].
  destruct (C44_command_line _ _ _ _ _ _ _ _ _ HP HC H1 H2 H3) as [lead [w [bang [white [opts [rest K]]]]]].
  destruct K as [? [? [? [? [_ [_ [_ [_ [_ [_ K]]]]]]]]]]. exact (head_bang_flag _ _ _ _ _ _ _ _ _ K H4).
Qed.
Print Assumptions C45_allowed.
Example C45_case : exists root n,
  accepted (T "echo 1 | sil! %Cmd! x") false [] root /\ within root n /\
  match n with NExcmd _ _ e => ae_forceit e | _ => false end = true.
Proof. apply (found _ _ None 9). vm_compute. reflexivity. Qed.

(** C46: the options ++bin, ++nobin, ++edit, ++ff=, ++enc= and ++bad= of a command are the
    ones written in front of its arguments; the last one of each kind counts, and commands
    that take no options have none. *)
Theorem C46_options : forall bs fails file opt root cells n e x,
  ParseFile (mkSource bs fails) file opt = Returned root -> source_cells bs cells ->
  within root n -> nea n = Some e -> ae_cmd e = Some x ->
  exists ap t rest post os, ae_argpos e = Some ap /\ line_from cells ap (t ++ rest) post /\
    (if flag (T "ARGOPT") x then options_text rest t os else t = [] /\ os = []) /\
    ae_force_bin e = last_option bin_of os 0 /\ ae_read_edit e = last_option edit_of os 0 /\
    ae_force_ff e = last_option format_of os [] /\ ae_force_enc e = last_option encoding_of os [] /\
    ae_bad_char e = last_option bad_of os [].
Proof.
  intros bs fails file opt root cells n e x HP HC H1 H2 H3.
  destruct (C44_command_line _ _ _ _ _ _ _ _ _ HP HC H1 H2 H3) as [lead [w [bang [white [opts [rest K]]]]]].
  destruct K as [? [? [ap [post [_ [_ [_ [_ [A1 [A2 K]]]]]]]]]].
  destruct (ht_opts _ _ _ _ _ _ _ _ _ K) as [os [t1 [t2 [t3 [E [O [B1 [B2 [B3 [B4 [B5 _]]]]]]]]]]].
  exists ap, t1, (t2 ++ t3 ++ rest), post, os. rewrite E, <- !app_assoc in A2. split; auto. split; auto.
  split; [exact O|]. do 4 (split; [assumption|]). assumption.
Qed.
Print Assumptions C46_options.
Example C46_case : exists root n,
  accepted (T "edit ++ff=dos ++enc=utf-8 ++ff=unix ++bad=keep a.txt") false [] root /\ within root n /\
  match n with NExcmd _ _ e => text_eqb (ae_force_ff e) (T "unix") && text_eqb (ae_force_enc e) (T "utf-8") | _ => false end = true.
Proof. apply (found _ _ None 9). vm_compute. reflexivity. Qed.

(** C23: the command a line resolves to does not depend on the commands before it. This
    is false of the code: after ":Foo" has been looked up, ":Foo1" is cut before its digit. *)
Definition second_name (o : api_result node) : text :=
  match o with
  | Returned (NFile _ body) => match rev body with
    | NExcmd _ _ e :: _ => match ae_cmd e with Some x => c_name x | None => [] end
    | _ => [] end
  | _ => [] end.
Theorem C23_history_refuted : exists before line file opt,
  second_name (ParseFile (mkSource (before ++ line) false) file opt) <>
  second_name (ParseFile (mkSource line false) file opt) /\
  second_name (ParseFile (mkSource line false) file opt) = T "Foo1".
Proof.
  exists (T "Foo" ++ [10]), (T "Foo1 bar"), [], None. split; vm_compute; [discriminate|reflexivity].
Qed.
Print Assumptions C23_history_refuted.
(** For every two commands of accepted inputs, whatever stands before and after their
    lines: the same text from the name to the end of the line gives the same command,
    unless the text may name a user command with a digit. *)
Theorem C23_same_command_partial : forall bs1 f1 file1 root1 cells1 n1 e1 x1 p1 q1 bs2 f2 file2 root2 cells2 n2 e2 x2 p2 q2 opt s,
  ParseFile (mkSource bs1 f1) file1 opt = Returned root1 -> source_cells bs1 cells1 ->
  within root1 n1 -> nea n1 = Some e1 -> ae_cmd e1 = Some x1 -> ae_cmdpos e1 = Some p1 -> line_from cells1 p1 s q1 ->
  ParseFile (mkSource bs2 f2) file2 opt = Returned root2 -> source_cells bs2 cells2 ->
  within root2 n2 -> nea n2 = Some e2 -> ae_cmd e2 = Some x2 -> ae_cmdpos e2 = Some p2 -> line_from cells2 p2 s q2 ->
  s <> [] -> ~ digit_in_name (with_neovim opt) s -> x1 = x2.
Proof.
  intros until s. intros H1 H2 H3 H4 H5 H6 H7 K1 K2 K3 K4 K5 K6 K7 Hs Hd.
  destruct (same_command _ _ _ _ _ _ _ _ _ _ _ _ _ _ _ _ _ _ _ _ _ _ _ H1 H2 H3 H4 H5 H6 H7 K1 K2 K3 K4 K5 K6 K7 Hs) as [L|[L|L]];
    auto; try contradiction.
Qed.
Print Assumptions C23_same_command_partial.
(** What the cache does to a name with a digit: nothing, or the name is cut there. *)
Theorem C23_cut_partial : forall bs fails file opt root cells n e x cp s post,
  ParseFile (mkSource bs fails) file opt = Returned root -> source_cells bs cells ->
  within root n -> nea n = Some e -> ae_cmd e = Some x ->
  ae_cmdpos e = Some cp -> line_from cells cp s post -> s <> [] ->
  (exists w, resolves (with_neovim opt) s w x) \/ exists w, cut_name (with_neovim opt) s w x.
Proof.
  intros bs fails file opt root cells n e x cp s post HP HC H1 H2 H3 H4 H5 Hs.
  destruct (C45_bang _ _ _ _ _ _ _ _ _ _ _ _ HP HC H1 H2 H3 H4 H5 Hs) as [w [rest [_ [[R|R] _]]]]; eauto.
Qed.
Print Assumptions C23_cut_partial.
Example C23_case : exists root n,
  accepted (T "call f() | Bar" ++ [10] ++ T "Bar x | y") false [] root /\ within root n /\
  match n with NExcmd p _ e => (ap_line p =? 2) && match ae_cmd e with Some x => text_eqb (c_name x) (T "Bar") | None => false end | _ => false end = true.
Proof. apply (found _ _ None 9). vm_compute. reflexivity. Qed.

(** C24: the command of a node is the first entry of the table that its name abbreviates,
    or the user command of this name. *)
Theorem C24_resolution : forall bs fails file opt root cells n e x cp s post,
  ParseFile (mkSource bs fails) file opt = Returned root -> source_cells bs cells ->
  within root n -> nea n = Some e -> ae_cmd e = Some x ->
  ae_cmdpos e = Some cp -> line_from cells cp s post -> s <> [] ->
  ~ digit_in_name (with_neovim opt) s ->
  exists w, resolves (with_neovim opt) s w x /\
    forall w' x', resolves (with_neovim opt) s w' x' -> w' = w /\ x' = x.
Proof.
  intros bs fails file opt root cells n e x cp s post HP HC H1 H2 H3 H4 H5 Hs Hd.
  destruct (C45_bang _ _ _ _ _ _ _ _ _ _ _ _ HP HC H1 H2 H3 H4 H5 Hs) as [w [rest [E [[R|R] _]]]].
  - exists w. split; auto. intros w' x' R'. eapply resolves_fun; eauto.
  - exfalso. apply Hd. destruct R as [R1 [R2 [_ [r [t [R3 R4]]]]]]. exists w, r, t. auto.
Qed.
Print Assumptions C24_resolution.
(** Every full name is the name of its command, but for vim9script and the four modifiers
    that start with k. Under Neovim the removed commands are gone. *)
Theorem C47_full_names_partial : forall nv x t, In x (command_table nv) ->
  ~ In (c_name x) [T "vim9script"; T "keepalt"; T "keepjumps"; T "keepmarks"; T "keeppatterns"] ->
  (nv = true -> forall y, In y neovim_removed_commands -> ~ abbreviates (c_name x) y) ->
  starts_with isalnum t = false ->
  exists y, resolves nv (c_name x ++ t) (c_name x) y /\ c_name y = c_name x.
Proof. exact full_name. Qed.
Print Assumptions C47_full_names_partial.
Example C47_case : exists x, In x (command_table true) /\ c_name x = T "substitute" /\
  ~ In (c_name x) [T "vim9script"; T "keepalt"; T "keepjumps"; T "keepmarks"; T "keeppatterns"] /\
  (forall y, In y neovim_removed_commands -> ~ abbreviates (c_name x) y) /\ starts_with isalnum (T "/a/b/") = false.
Proof.
  destruct (find (fun x => text_eqb (c_name x) (T "substitute")) (command_table true)) as [x|] eqn:E; [|vm_compute in E; discriminate].
  apply find_some in E. destruct E as [E1 E2]. apply Cursor.text_eqb_eq in E2. exists x. split; [exact E1|]. split; [exact E2|]. rewrite E2.
  split; [intros H; apply Cursor.mem_text_In in H; vm_compute in H; discriminate H|]. split; [|reflexivity].
  intros y Hy [[r Hr] _]. assert (K : forallb (fun y => negb (text_eqb (firstn 10 (c_name y)) (T "substitute"))) neovim_removed_commands = true) by (vm_compute; reflexivity).
  rewrite forallb_forall in K. specialize (K _ Hy). rewrite Hr in K. vm_compute in K. discriminate K.
Qed.
(** The exception: the line "vim9script" is the command :vimgrep. *)
Theorem C47_vim9script_refuted : exists x, In x (command_table false) /\
  second_name (ParseFile (mkSource (c_name x) false) [] None) = T "vimgrep" /\ c_name x = T "vim9script".
Proof.
  destruct (find (fun x => text_eqb (c_name x) (T "vim9script")) (command_table false)) as [x|] eqn:E; [|vm_compute in E; discriminate].
  exists x. split. apply find_some in E. tauto. vm_compute in E. inversion E; subst. vm_compute. auto.
Qed.
Print Assumptions C47_vim9script_refuted.
(** A line that starts with a letter and names no command is rejected with E492. *)
Theorem C24_unknown : forall bs fails file opt l ls,
  seen_lines bs (l :: ls) -> match ls with t :: _ => ~ is_continuation t | [] => True end ->
  starts_with isalpha l = true -> ~ modifier_follows l ->
  (forall w x, ~ resolves (with_neovim opt) l w x) -> ~ digit_in_name (with_neovim opt) l ->
  ParseFile (mkSource bs fails) file opt =
    Failed (ErrVimlParser file 0 1 1 (T "E492: Not an editor command: " ++ l)).
Proof.
  intros bs fails file opt l ls H1 H2 H3 H4 H5 H6. destruct l as [|r l']; [discriminate|]. cbn [starts_with] in H3.
  eapply unknown_first; eauto.
Qed.
Print Assumptions C24_unknown.
(** A line that starts with a capitalised name that no builtin command has is a user
    command of this name. *)
Theorem C24_user_command : forall bs fails file opt l w0 w u,
  seen_lines bs [l] -> starts_with isupper l = true ->
  longest isalpha w0 l -> user_word (with_neovim opt) w0 -> longest isalnum w l -> l = w ++ u ->
  exists ap, ParseFile (mkSource bs fails) file opt =
    Returned (NFile (mkAPos 0 1 1 file) [NExcmd (mkAPos 0 1 1 file) l
      (mkAEa (starts_with (fun x => x =? C "!") u) [] 0 false 0 0 0 [] [] []
         (Some (mkAPos 0 1 1 file)) (Some (mkAPos 0 1 1 file)) (Some ap) (Some (user_command w)) [] [])]).
Proof.
  intros bs fails file opt l w0 w u H1 H2 H3 H4 H5 H6. destruct l as [|r l']; [discriminate|]. cbn [starts_with] in H2.
  eapply user_line; eauto.
Qed.
Print Assumptions C24_user_command.
(** Lines that meet the hypotheses of the last two theorems: PropNames.v. *)
Example C24_case : (exists x, In x (command_table true) /\ c_name x = T "substitute") /\
  ParseFile (mkSource (T "vimgrepx y") false) [] None =
    Failed (ErrVimlParser [] 0 1 1 (T "E492: Not an editor command: vimgrepx y")) /\
  seen_lines (T "vimgrepx y") [T "vimgrepx y"].
Proof.
  split; [|split; [vm_compute; reflexivity|]].
  - destruct (find (fun x => text_eqb (c_name x) (T "substitute")) (command_table true)) as [x|] eqn:E; [|vm_compute in E; discriminate].
    apply find_some in E. destruct E as [E1 E2]. apply Cursor.text_eqb_eq in E2. eauto.
  - apply (seen_lines_iff _ _ false). vm_compute. reflexivity.
Qed.

(** C25: only the commands that Neovim adds or removes depend on the option. *)
Theorem C25_names : forall s x, (forall y, editor_specific y -> ~ abbreviates s y) ->
  (first_match true s x <-> first_match false s x) /\ (user_word true s <-> user_word false s).
Proof. intros s x H. split. apply first_match_option; auto. apply user_word_option; auto. Qed.
Print Assumptions C25_names.
Theorem C25_lines : forall line w key x, word_of line w key -> (forall y, editor_specific y -> ~ abbreviates key y) ->
  forall v, resolves true line v x <-> resolves false line v x.
Proof. exact resolves_option. Qed.
Print Assumptions C25_lines.
Theorem C25_nodes : forall bs1 f1 file1 opt1 root1 cells1 n1 e1 x1 p1 q1 bs2 f2 file2 opt2 root2 cells2 n2 e2 x2 p2 q2 s,
  ParseFile (mkSource bs1 f1) file1 opt1 = Returned root1 -> source_cells bs1 cells1 ->
  within root1 n1 -> nea n1 = Some e1 -> ae_cmd e1 = Some x1 -> ae_cmdpos e1 = Some p1 -> line_from cells1 p1 s q1 ->
  ParseFile (mkSource bs2 f2) file2 opt2 = Returned root2 -> source_cells bs2 cells2 ->
  within root2 n2 -> nea n2 = Some e2 -> ae_cmd e2 = Some x2 -> ae_cmdpos e2 = Some p2 -> line_from cells2 p2 s q2 ->
  s <> [] -> ~ digit_in_name (with_neovim opt1) s -> ~ digit_in_name (with_neovim opt2) s ->
  (forall w key y, word_of s w key -> editor_specific y -> ~ abbreviates key y) -> x1 = x2.
Proof.
  intros until s. intros H1 H2 H3 H4 H5 H6 H7 K1 K2 K3 K4 K5 K6 K7 Hs Hd Hd2 Hk.
  destruct (same_command _ _ _ _ _ _ _ _ _ _ _ _ _ _ _ _ _ _ _ _ _ _ _ H1 H2 H3 H4 H5 H6 H7 K1 K2 K3 K4 K5 K6 K7 Hs) as [L|[L|L]];
    auto; contradiction.
Qed.
Print Assumptions C25_nodes.
(** The option matters: :tnoremap-like commands are found under both, :rshada only in
    Neovim, :shell only in Vim. *)
Example C25_case : (forall y, editor_specific y -> ~ abbreviates (T "echo") y) /\
  second_name (ParseFile (mkSource (T "shell") false) [] None) = T "shell" /\
  (exists m, ParseFile (mkSource (T "shell") false) [] (Some (mkOption true)) = Failed m).
Proof.
  split.
  - assert (A : forallb (fun y => negb (cmd_matches (T "echo") y)) (neovim_additional_commands ++ neovim_removed_commands) = true) by (vm_compute; reflexivity).
    rewrite forallb_forall in A. intros y Hy K. apply matches_iff in K. 
    assert (I : In y (neovim_additional_commands ++ neovim_removed_commands)) by (apply in_or_app; exact Hy).
    apply A in I. rewrite K in I. discriminate.
  - split. vm_compute. reflexivity. eexists. vm_compute. reflexivity.
Qed.

(** C51: how far an Ex command goes. The text of every Excmd with a command is its line
    from LinePos on, up to where the rules of the command say it ends, or, for commands
    that take lines, its line and the lines below it up to the marker. *)
Theorem C51_extent : forall bs fails file opt root cells p s e x,
  ParseFile (mkSource bs fails) file opt = Returned root -> source_cells bs cells ->
  within root (NExcmd p s e) -> ae_cmd e = Some x ->
  exists lead w bang white opts rest lp post,
    command_line cells (with_neovim opt) e x lead w bang white opts rest /\
    ae_linepos e = Some lp /\ line_from cells lp (lead ++ w ++ bang ++ white ++ opts ++ rest) post /\
    ((exists t, kept_text expression_text x (ae_usefilter e) rest t /\ s = lead ++ w ++ bang ++ white ++ opts ++ t) \/
     (exists m ls, takes_lines x rest m /\ lines_below m post ls /\
        s = (lead ++ w ++ bang ++ white ++ opts ++ rest) ++ concat (map (fun s => 10 :: s) ls))).
Proof. intros. eapply node_text; eauto. Qed.
Print Assumptions C51_extent.
Example C51_bar_case : exists root n,
  accepted (T "edit `='|'` b\|c""d | quit") false [] root /\ within root n /\
  match n with NExcmd _ s _ => text_eqb s (T "edit `='|'` b\|c") | _ => false end = true.
Proof. apply (found _ _ None 9). vm_compute. reflexivity. Qed.
Example C51_lines_case : exists root n,
  accepted (T "append" ++ [10] ++ T "one" ++ [10] ++ T "." ++ [10] ++ T "lua <<EOS" ++ [10] ++ T "x" ++ [10] ++ T "EOS") false [] root /\
  within root n /\
  match n with NExcmd _ s _ => text_eqb s (T "lua <<EOS" ++ [10] ++ T "x" ++ [10] ++ T "EOS") | _ => false end = true.
Proof. apply (found _ _ None 9). vm_compute. reflexivity. Qed.
