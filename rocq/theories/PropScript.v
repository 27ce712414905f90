(** Property C50: scripts written by the grammar of WrittenScript.v are read. *)
From Coq Require Import Lia ZifyBool ZifyNat ZifyN.
From Verif Require Import Base Utf8 CharClass Reader Vnode Token CmdTable Ast Head Extent CmdSpec Script Grammar Export CmdParser CmdArgs Api ApiFile Places
  LinesProof Join JoinProof Written WrittenProof Rest WrittenScript HeadProof TargetProof HeadBack ScriptProof PropWrite PropText.

(** C50: completeness of the parser for scripts. If the logical lines of a source are a
    text for the statements [ns], ParseFile delivers a file with the statements [ns], up
    to positions. [written_script] is the grammar of WrittenScript.v; its first argument
    tells whether the commands of Neovim are known. *)
Theorem C50_reads_written : forall bs fails ts js ns file opt,
  seen_lines bs ts -> unbroken ts js ->
  written_script (match opt with Some o => o_neovim o | None => false end) ns js ->
  exists p body, ParseFile (mkSource bs fails) file opt = Returned (NFile p body) /\ map unplaced body = map unplaced ns.
Proof. intros bs fails ts js ns file opt. exact (script_written bs fails ts js ns file opt). Qed.
Print Assumptions C50_reads_written.

(** A text is a text for one list of statements only. *)
Theorem C50_unambiguous : forall nv ns ns' js,
  written_script nv ns js -> written_script nv ns' js -> map unplaced ns = map unplaced ns'.
Proof. exact script_unique. Qed.
Print Assumptions C50_unambiguous.

Definition C50_source : list N := concat (map (fun l => l ++ [10])
  [ T "fu! F(a,"; T "  \ ...)"; T "  :for x in a"; T "    if x | retu y | en"; T "  endfo"; T "endf";
    T "try ""t"; T "cat /E1/"; T "  let [a, b] += x"; T "endt" ]).
Definition head_ (bang : bool) (k : text) : aexarg :=
  mkAEa bang [] 0 false 0 0 0 [] [] [] (Some here) (Some here) (Some here) (lookup_builtin false k) [] [].
Definition C50_tree : list node :=
  [ NFunction here (head_ true (T "function"))
      [ NFor here (head_ false (T "for"))
          [ NIf here (head_ false (T "if")) [ NReturn here (head_ false (T "return")) (Some (id_ (T "y"))) ] (Some (id_ (T "x"))) [] None
              (Some (NEndIf here (head_ false (T "endif")))) ]
          (Some (id_ (T "x"))) [] None (Some (id_ (T "a"))) (Some (NEndFor here (head_ false (T "endfor")))) ]
      (Some (id_ (T "F"))) [id_ (T "a"); id_ (T "...")] [] (mkAttr false false false false)
      (Some (NEndFunction here (head_ false (T "endfunction"))));
    NTry here (head_ false (T "try")) [ NComment here (T "t") ]
      [ NCatch here (head_ false (T "catch"))
          [ NLet here (head_ false (T "let")) (T "+=") None [id_ (T "a"); id_ (T "b")] None (Some (id_ (T "x"))) ] (T "E1") ]
      None (Some (NEndTry here (head_ false (T "endtry")))) ].

Ltac letter := apply one_letter; [repeat constructor|reflexivity].
Ltac is_target_ := split; [letter|split; [reflexivity|]];
  let u := fresh in let s := fresh in let H := fresh in let E := fresh in
  intros [u [s [H [E _]]]]; cbn [In] in H; destruct H as [<-|[<-|[]]]; discriminate E.
Ltac name_ k w := apply (cm_plain false _ _ k _ w here here here); [apply lookup_first; vm_compute; reflexivity|reflexivity|reflexivity|try discriminate; try reflexivity].
Ltac name_bang k w := apply (cm_bang false _ _ k _ w here here here); [apply lookup_first; vm_compute; reflexivity|reflexivity|reflexivity|reflexivity].

Definition C50_lines : list text :=
  [ T "fu! F(a, ...)"; T "  :for x in a"; T "    if x | retu y | en"; T "  endfo"; T "endf";
    T "try ""t"; T "cat /E1/"; T "  let [a, b] += x"; T "endt" ].

Lemma C50_if w : pl_fun w = true -> block_cmd false w false true (NIf here (head_ false (T "if"))
  [ NReturn here (head_ false (T "return")) (Some (id_ (T "y"))) ] (Some (id_ (T "x"))) [] None (Some (NEndIf here (head_ false (T "endif")))))
  (chars (T "if x | retu y | en")).
Proof.
  intros H. apply (bc_if false w false _ (T "if ") _ (T "x") [] (chars (T " |")) _ (chars (T " retu y |")) [] None [] (T " ") _ (T "en") here here).
  - name_ (T "if") (T " ").
  - letter.
  - apply (en_bar true (T " ")). reflexivity.
  - apply (bl_cmd false _ (T " ") false true _ (chars (T "retu y")) [] (chars (T " |")) [] []); [reflexivity| |apply (en_bar true (T " ")); reflexivity|constructor].
    apply bc_line. apply (lc_return false _ false _ (T "retu ") _ (T "y") here); [exact H|name_ (T "retu") (T " ")|letter].
  - constructor.
  - reflexivity.
  - name_ (T "en") ([] : text).
Qed.
Lemma C50_function : block_cmd false top_place true false (nth 0 C50_tree (id_ []))
  (lines_text (firstn 4 C50_lines) ++ chars (T "endf")).
Proof.
  apply (bc_function false _ _ (T "fu! ") _ (T "F") [] _ _ (T "a, ...)") _ [] [] [EOL] _ (lines_text (firstn 3 (skipn 1 C50_lines))) [] _ (T "endf") [] here here).
  - name_bang (T "fu") (T " ").
  - is_target_.
  - left. exists (C "F"), []. split; [reflexivity|]. right; right; reflexivity.
  - reflexivity.
  - apply (wf_cons [] here (T "a") [] _ _ (T " ...)")); [|reflexivity|apply (wf_rest false _ here (T " ") []); reflexivity].
    split; [reflexivity|]. split; [|intros []]. cbn [In]. intros X; repeat destruct X as [X|X]; try discriminate; exact X.
  - constructor.
  - apply (en_line false true []); [reflexivity|reflexivity].
  - apply (bl_cmd false _ (T "  :") false true _ (chars (T "for x in a") ++ [EOL] ++ chars (T "    if x | retu y | en") ++ [EOL] ++ chars (T "  endfo")) [] [EOL] [] []);
      [reflexivity| |apply (en_line false true []); reflexivity|constructor].
    apply (bc_for false _ false _ (T "for ") _ _ _ (T "x") (T " ") (T " ") _ (T "a") [] [EOL] _
      (chars (T "    if x | retu y | en") ++ [EOL]) (T "  ") _ (T "endfo") here here).
    + name_ (T "for") (T " ").
    + apply wl_one; [is_target_|reflexivity|left; discriminate].
    + reflexivity.
    + reflexivity.
    + letter.
    + reflexivity.
    + apply (en_line false true []); reflexivity.
    + apply (bl_cmd false _ (T "    ") false true _ (chars (T "if x | retu y | en")) [] [EOL] [] []);
      [reflexivity|apply C50_if; reflexivity|apply (en_line false true []); reflexivity|constructor].
    + reflexivity.
    + name_ (T "endfo") ([] : text).
  - reflexivity.
  - name_ (T "endf") ([] : text).
Qed.
Lemma C50_try : block_cmd false top_place false true (nth 1 C50_tree (id_ []))
  (lines_text (firstn 3 (skipn 5 C50_lines)) ++ chars (T "endt")).
Proof.
  apply (bc_try false _ _ (T "try ") [NComment here (T "t")] (chars (T """t") ++ [EOL]) [] [] _ _ (lines_text (firstn 2 (skipn 6 C50_lines))) [] _ (T "endt") here here).
  - name_ (T "try") (T " ").
  - apply (en_comment [] here (T "t")). reflexivity.
  - constructor.
  - apply (tp_catch false _ false [] _ (T "cat ") (T "E1") (T "/E1/") [] [EOL] _ (lines_text (firstn 1 (skipn 7 C50_lines))) [] None [] here).
    + reflexivity.
    + name_ (T "cat") (T " ").
    + apply (wp_closed (C "/") (T "E1")); [cbn; intuition discriminate|].
      apply pt_char; [discriminate|left; discriminate|]. apply pt_char; [discriminate|left; discriminate|]. apply pt_nil.
    + apply (en_line false true []); reflexivity.
    + apply (bl_cmd false _ (T "  ") false true _ (chars (T "let [a, b] += x")) [] [EOL] [] []);
      [reflexivity| |apply (en_line false true []); reflexivity|constructor].
      apply bc_line. apply (lc_let false _ false _ (T "let ") _ _ _ (T "[a, b]") (T "+=") (T " ") (T " ") _ (T "x") here).
      * name_ (T "let") (T " ").
      * cbn; tauto.
      * apply (wl_list _ _ _ _ _ (T "a, b]")). apply (wt_cons _ (T "a") [] [] _ _ (T " b]")); [is_target_|reflexivity|reflexivity|reflexivity|].
        apply (wt_last _ (T "b") (T " ") []); [is_target_|reflexivity|reflexivity|reflexivity].
      * reflexivity.
      * reflexivity.
      * letter.
    + constructor.
  - reflexivity.
  - name_ (T "endt") ([] : text).
Qed.

Example C50_case : exists ts p body, seen_lines C50_source ts /\ unbroken ts C50_lines /\ ts <> C50_lines /\
  written_script false C50_tree C50_lines /\
  ParseFile (mkSource C50_source false) (T "a.vim") None = Returned (NFile p body) /\ map unplaced body = map unplaced C50_tree.
Proof.
  do 3 eexists. split; [apply (seen_lines_iff _ _ false); vm_compute; reflexivity|].
  split; [|split; [discriminate|split; [|split; vm_compute; reflexivity]]].
  - apply (ub_line (T "fu! F(a,") _ [T " ...)"] (skipn 1 C50_lines) (skipn 1 C50_lines)).
    + apply ct_more with (ws := T "  "); [split; reflexivity|]. apply ct_stop. intros l r E. injection E as <- <-. apply not_continuation. vm_compute; reflexivity.
    + apply unbroken_self. repeat constructor; apply not_continuation; vm_compute; reflexivity.
  - apply ws_blocks.
    apply (bl_cmd false _ [] true false _ (lines_text (firstn 4 C50_lines) ++ chars (T "endf")) [] [EOL] _ (lines_text (skipn 5 C50_lines)));
      [reflexivity|exact C50_function|apply (en_line true false []); reflexivity|].
    apply (bl_cmd false _ [] false true _ (lines_text (firstn 3 (skipn 5 C50_lines)) ++ chars (T "endt")) [] [EOL] [] []);
      [reflexivity|exact C50_try|apply (en_line false true []); reflexivity|constructor].
Qed.

(** Ex commands kept as text: a command up to a bar, one that takes the lines below it, a
    range alone, and :finish, after which nothing is read. *)
Definition text_head (ms : list modifier) (rg : list text) (ap : option apos) (k : option cmd) : aexarg :=
  mkAEa false [] 0 false 0 0 0 [] [] [] (Some here) (Some here) ap k ms rg.
Definition C50_text_lines : list text :=
  [ T "silent set ts=4 | echo x"; T "lua << EOF"; T "print(1)"; T "EOF"; T "5"; T "fini"; T ")) | not read" ].
Definition C50_text_tree : list node :=
  [ NExcmd here (T "silent set ts=4") (text_head [mkMod (T "silent") (Some 0) None] [] (Some here) (lookup_builtin false (T "set")));
    NEchoCmd here (T "echo") (head_ false (T "echo")) [id_ (T "x")];
    NExcmd here (T "lua << EOF" ++ 10 :: T "print(1)" ++ 10 :: T "EOF") (text_head [] [] (Some here) (lookup_builtin false (T "lua")));
    NExcmd here (T "5") (text_head [] [T "5"] None None);
    NExcmd here (T "fini") (text_head [] [] (Some here) (lookup_builtin false (T "finish"))) ].

Lemma no_modifier w t : w <> [] -> forallb isalpha w = true -> starts_with isalpha t = false ->
  forallb (fun nm => negb (text_eqb w (firstn (length w) (fst nm)) && (snd nm <=? length w)%nat)) modifier_names = true ->
  ~ modifier_follows (w ++ t).
Proof.
  intros Hw Ha Ht Hn [d [b [k [u [name [E [[Hd [Hb [Hdb Hu]]] [m [Hin [[r Er] Hm]]]]]]]]]].
  assert (Hd0 : d = []).
  { destruct d as [|y d]; auto. exfalso. destruct w as [|z w]; [congruence|]. injection E as -> _. cbn [forallb] in Ha. unfold all_digits in Hd. cbn [forallb] in Hd.
    apply andb_true_iff in Ha, Hd. destruct Ha as [Ha _], Hd as [Hd _]. unfold isalpha, isdigit, isupper, islower, between in *. lia. }
  subst d. rewrite (Hdb eq_refl) in E. cbn [app] in E.
  assert (Hk : forallb isalpha k = true).
  { destruct (modifier_letters k name) as [_ H]; auto. exists m. repeat split; auto. exists r; auto. }
  assert (Ek : w = k).
  { clear - E Ha Ht Hk Hu. revert k Hk E; induction w as [|y w IH]; intros [|z k] Hk E; cbn [app forallb] in *; auto.
    - subst t. cbn [starts_with] in Ht. apply andb_true_iff in Hk. destruct Hk. congruence.
    - subst u. cbn [starts_with] in Hu. apply andb_true_iff in Ha. destruct Ha. congruence.
    - injection E as -> E. apply andb_true_iff in Ha, Hk. f_equal. apply IH; tauto. }
  subst k. rewrite forallb_forall in Hn. specialize (Hn _ Hin). cbn [fst snd] in Hn. subst name.
  rewrite firstn_app, firstn_all, Nat.sub_diag in Hn. cbn [firstn] in Hn. rewrite app_nil_r, text_eqb_rfl in Hn. apply Nat.leb_le in Hm. rewrite Hm in Hn. discriminate.
Qed.
Lemma no_modifier_alone d : all_digits d -> ~ modifier_follows d.
Proof.
  intros Hd [d' [b [k [u [name [E [_ Hk]]]]]]]. destruct (modifier_letters k name Hk) as [Hne Ha]. destruct k as [|y k]; [congruence|].
  assert (Hin : In y d) by (rewrite E; apply in_or_app; right; apply in_or_app; right; left; reflexivity).
  unfold all_digits in Hd. rewrite forallb_forall in Hd. specialize (Hd _ Hin). cbn [forallb] in Ha. apply andb_true_iff in Ha. destruct Ha as [Ha _].
  unfold isalpha, isdigit, isupper, islower, between in *. lia.
Qed.
(** A word of letters that names a command of the table. *)
Lemma plain_word w t key : forallb isalpha w = true -> w <> [] -> starts_with isalpha t = false -> starts_upper w = false ->
  ~ Head.begins (T "k") (w ++ t) -> ~ repeats_s (w ++ t) -> ~ Head.begins (T "py") (w ++ t) -> ~ delete_flag w ->
  forall x, lookup_builtin false w = Some x -> key = w -> resolves false (w ++ t) w x.
Proof.
  intros H1 H2 H3 H4 H5 H6 H7 H8 x Hx ->. apply (co_table _ _ w w x).
  - apply wo_letters; auto. exists t. auto.
  - apply lookup_first; auto.
  - intros [K _]. congruence.
Qed.
(** No range. *)
Lemma no_range rest : starts_with (one_of (32 :: 9 :: 92 :: T ".$'/?0123456789+-%*;,")) rest = false -> range_text rest [] [].
Proof.
  intros H. assert (K : forall l, (forall r, one_of l r = true -> one_of (32 :: 9 :: 92 :: T ".$'/?0123456789+-%*;,") r = true) -> starts_with (one_of l) rest = false).
  { intros l Hl. destruct rest as [|r rest]; auto. cbn [starts_with] in *. destruct (one_of l r) eqn:E; auto. rewrite (Hl _ E) in H. discriminate. }
  assert (K2 : forall l, forallb (one_of (32 :: 9 :: 92 :: T ".$'/?0123456789+-%*;,")) l = true -> starts_with (one_of l) rest = false).
  { intros l Hl. apply K. intros r Hr. rewrite forallb_forall in Hl. apply Hl. unfold one_of in Hr. apply existsb_exists in Hr. destruct Hr as [y [Hy E]]. apply N.eqb_eq in E. subst. auto. }
  apply (rt_last rest [] [] [] []); [|apply al_none|]; try (apply K2; reflexivity).
  apply (ad_last _ [] [] [] [] []); cbn [app].
  - intros r [].
  - destruct rest as [|r rest]; auto. cbn [starts_with] in *. destruct (iswhite r) eqn:E; auto. unfold one_of in H. cbn [existsb] in H. unfold iswhite in E. lia.
  - apply ls_none. apply K2. reflexivity.
  - apply of_end; [intros r []|]. apply K2. reflexivity.
  - apply K2. reflexivity.
Qed.
(** The head of a command without options. *)
Lemma plain_head x ms tm w white rest a : resolves false (w ++ white ++ rest) w x -> flag (T "ARGOPT") x = false -> flag (T "EDITCMD") x = false ->
  ~ In (c_name x) [T "!"; T "<"; T ">"; T "write"; T "update"; T "read"] -> all_white white ->
  starts_with iswhite rest = false -> ~ Head.begins (T "!") (white ++ rest) ->
  starts_with (one_of (32 :: 9 :: 92 :: T ".$'/?0123456789+-%*;,")) (w ++ white ++ rest) = false ->
  modifiers_text (w ++ white ++ rest) tm ms -> head_not (fun r => iswhite r || (r =? C ":")) (tm ++ w) ->
  starts_upper w = false -> a = text_head ms [] (Some here) (Some x) ->
  head_line false x (ast_head a) tm w [] white [] rest.
Proof.
  intros Hres Ho He Hn Hw Hr Hb Hrg Hm Hf Hu ->. constructor; auto.
  2: { intros K. congruence. }
  constructor; cbn [app].
  - exists tm, [], []. rewrite app_nil_r. split; [reflexivity|]. split; [exact Hm|]. split; [apply no_range; exact Hrg|intros r []].
  - left. exact Hres.
  - right. split; auto. contradiction.
  - exact Hw.
  - split; auto. intros K. exfalso. apply Hn. rewrite K. left. reflexivity.
  - exists [], [], [], []. rewrite Ho, He. split; [reflexivity|]. do 6 (split; [auto|]). split.
    + apply ow_none; intros K; exfalso; apply Hn; [destruct K as [<-|[<-|[]]]|destruct K as [<-|[<-|[]]]|rewrite K|rewrite K]; cbn [In]; auto 10.
    + apply ecm_none. discriminate.
Qed.
Definition cmd_of (k : text) : cmd := match lookup_builtin false k with Some x => x | None => user_command [] end.
Definition set_cmd : cmd := Eval vm_compute in cmd_of (T "set").
Definition lua_cmd : cmd := Eval vm_compute in cmd_of (T "lua").
Definition fini_cmd : cmd := Eval vm_compute in cmd_of (T "finish").
Definition echo_cmd : cmd := Eval vm_compute in cmd_of (T "echo").
Ltac no_begin := let r := fresh in let E := fresh in intros [r E]; discriminate E.
Ltac a_word := eapply plain_word; [reflexivity|discriminate|reflexivity|reflexivity|no_begin| |no_begin| |vm_compute; reflexivity|reflexivity];
  [let H := fresh in intros H; inversion H|
   let d := fresh in let H := fresh in let E := fresh in
   intros [_ [d [H [E|E]]]]; cbn [In] in H; repeat (destruct H as [<-|H]; [discriminate E|]); exact H].
Ltac is_head := eapply plain_head; [a_word|reflexivity|reflexivity|
  let H := fresh in intros H; cbn [In] in H; repeat (destruct H as [H|H]; [discriminate H|]); exact H
  |let r := fresh in let H := fresh in intros r H; cbn [In] in H; repeat (destruct H as [<-|H]; [auto|]); contradiction H
  |reflexivity|no_begin|reflexivity| |reflexivity|reflexivity|reflexivity].

Lemma C50_set u : text_line false [] (text_head [mkMod (T "silent") (Some 0) None] [] (Some here) (Some set_cmd)) set_cmd
  (T "silent ") (T "set") [] (T " ") [] (T "ts=4") (T " |" ++ u).
Proof.
  split; [|split; [no_begin|split; [|intros K; cbn [In] in K; repeat (destruct K as [K|K]; [discriminate K|]); contradiction K]]].
  - is_head. apply (ms_cons _ (T "silent ") _ [] []).
    + apply (mt_silent _ [] [] (T "silent") (T " ")); [|exists 3%nat; split; [cbn [In modifier_names]; auto 20|split; [exists []; reflexivity|cbn; lia]]| |no_begin|reflexivity].
      * split; [reflexivity|]. split; [intros r []|]. split; reflexivity.
      * intros r [<-|[]]. auto.
    + apply ms_nil. apply no_modifier; [discriminate|reflexivity|reflexivity|vm_compute; reflexivity].
  - apply (kt_bar _ _ _ (T "ts=4") (T " ") (T "|" ++ u)); [cbn; tauto|].
    apply (to_bar _ _ _ [] (T "ts=4") (T " ") (T "|" ++ u)); [reflexivity|reflexivity| |].
    + do 5 (apply ar_char; [discriminate|intros [_ [q E]]; discriminate E|intros [E|[_ [[q E]|[[q E]|[[q E] _]]]]]; discriminate E|]).
      apply ar_end. right. split; [|left; exists u; reflexivity]. intros [q E]. apply (f_equal (@rev N)) in E. rewrite (rev_app_distr q [92]) in E. discriminate E.
    + split; [intros r [<-|[]]; auto|]. intros [q [r [E Hr]]]. apply (f_equal (@rev N)) in E. rewrite (rev_app_distr q [r]) in E. injection E as <- _. discriminate Hr.
Qed.
Lemma C50_lua : head_line false lua_cmd (ast_head (text_head [] [] (Some here) (Some lua_cmd))) [] (T "lua") [] (T " ") [] (T "<< EOF").
Proof. is_head. apply ms_nil. apply (no_modifier (T "lua") (T " << EOF")); [discriminate|reflexivity|reflexivity|vm_compute; reflexivity]. Qed.
Lemma C50_five : bare_line (T "5") (ast_head (text_head [] [T "5"] None None)) [].
Proof.
  split; [|split; [left; reflexivity|reflexivity]]. exists [], (T "5"), []. split; [reflexivity|]. split; [apply ms_nil, no_modifier_alone; reflexivity|].
  split; [|intros r []]. apply (rt_last _ (T "5") [] [T "5"] []); [|apply al_none; reflexivity|reflexivity].
  apply (ad_last _ [] (T "5") [] [T "5"] []); [intros r []|reflexivity| |apply of_end; [intros r []|reflexivity]|reflexivity].
  apply ls_number; [discriminate|reflexivity|reflexivity].
Qed.
Lemma C50_finish : text_line false [] (text_head [] [] (Some here) (Some fini_cmd)) fini_cmd [] (T "fini") [] [] [] [] [].
Proof.
  split; [|split; [no_begin|split; [|intros K; cbn [In] in K; repeat (destruct K as [K|K]; [discriminate K|]); contradiction K]]].
  - is_head. apply ms_nil. apply (no_modifier (T "fini") []); [discriminate|reflexivity|reflexivity|vm_compute; reflexivity].
  - apply (kt_bar _ _ _ [] [] []); [cbn; tauto|]. apply (to_bar _ _ _ [] [] [] []); [reflexivity|reflexivity|apply ar_end; left; reflexivity|].
    split; [intros r []|]. intros [q [r [E _]]]. destruct q; discriminate E.
Qed.
Example C50_text_case : written_script false C50_text_tree C50_text_lines /\
  exists p body, ParseFile (mkSource (concat (map (fun l => l ++ [10]) C50_text_lines)) false) (T "a.vim") None = Returned (NFile p body) /\
    map unplaced body = map unplaced C50_text_tree.
Proof.
  split; [|do 2 eexists; split; vm_compute; reflexivity].
  apply (ws_finish false (firstn 4 C50_text_tree) (lines_text (firstn 5 C50_text_lines)) [] _ fini_cmd [] (T "fini") [] [] [] [] [] (lines_text [T ")) | not read"]) here);
    [|reflexivity|vm_compute; reflexivity|repeat split; discriminate|reflexivity|exact C50_finish|reflexivity].
  apply (bl_text false _ [] _ set_cmd (T "silent ") (T "set") [] (T " ") [] (T "ts=4") [] (chars (T " |")) _
    (lines_text (T " echo x" :: firstn 4 (skipn 1 C50_text_lines))) here);
    [reflexivity|vm_compute; reflexivity|repeat split; discriminate|left; cbn; tauto| |apply (en_bar true (T " ")); reflexivity|].
  { intros z [E|[v [u [E ->]]]].
    - exfalso. apply (f_equal (@rev cell)) in E. rewrite (rev_app_distr (chars z) [EOL]) in E. discriminate E.
    - replace v with (T " |"); [exact (C50_set u)|]. clear - E. destruct v as [|v1 [|v2 [|]]]; try discriminate E. injection E as <- <-. reflexivity. }
  apply (bl_cmd false _ (T " ") false false _ (chars (T "echo x")) [] [EOL] _ (lines_text (firstn 4 (skipn 1 C50_text_lines))));
    [reflexivity| |apply (en_line false false []); reflexivity|].
  { apply bc_line. apply (lc_echo false _ false EEcho _ (T "echo ") echo_cmd [id_ (T "x")] (T "x") here); [name_ (T "echo") (T " ")|vm_compute; reflexivity|].
    apply wx_last. letter. }
  apply (bl_lines false _ [] _ lua_cmd [] (T "lua") [] (T " ") [] (T "<< EOF") (T "EOF") [T "print(1)"] _ (lines_text [T "5"]) here);
    [reflexivity|vm_compute; reflexivity|repeat split; discriminate|exact C50_lua|no_begin| |intros [E|[]]; discriminate E|].
  { apply (tl_script _ [] (T " ") (T "EOF")); [cbn; tauto|intros r []|intros r [<-|[]]; auto|reflexivity]. }
  apply (bl_bare false _ [] _ (T "5") [] [EOL] [] [] here);
    [reflexivity|discriminate|reflexivity|discriminate|discriminate|reflexivity|reflexivity|right; discriminate| |apply (en_line false true []); reflexivity|constructor].
  intros z [E|[v [u [E _]]]].
  - destruct z as [|z1 z]; [exact C50_five|]. exfalso. destruct z; discriminate E.
  - destruct v; discriminate E.
Qed.

(** A listing: :let with names only. *)
Definition let_cmd : cmd := Eval vm_compute in cmd_of (T "let").
Definition C50_listing_tree : list node := [ NExcmd here (T "let a b") (text_head [] [] (Some here) (Some let_cmd)) ].
Lemma C50_let : text_line false [] (text_head [] [] (Some here) (Some let_cmd)) let_cmd [] (T "let") [] (T " ") [] (T "a b") [].
Proof.
  split; [|split; [no_begin|split]].
  - is_head. apply ms_nil. apply (no_modifier (T "let") (T " a b")); [discriminate|reflexivity|reflexivity|vm_compute; reflexivity].
  - apply (kt_bar _ _ _ (T "a b") [] []); [cbn; tauto|]. apply to_line. reflexivity.
  - intros _. apply (li_let _ [] (Some (id_ (T "a"))) [] None (T "a") (T " ") (T "b")); [reflexivity|reflexivity| |reflexivity| |no_begin].
    + apply wl_one; [split; [letter|split; [reflexivity|]]|reflexivity|left; discriminate].
      intros [u [v [Hu [E _]]]]. cbn [In] in Hu. destruct Hu as [<-|[<-|[]]]; discriminate E.
    + apply no_word; [reflexivity|]. intros o u [<-|[<-|[]]] E; discriminate E.
Qed.
Example C50_listing_case : written_script false C50_listing_tree [T "let a b"] /\
  exists p body, ParseFile (mkSource (T "let a b" ++ [10]) false) (T "a.vim") None = Returned (NFile p body) /\
    map unplaced body = map unplaced C50_listing_tree.
Proof.
  split; [|do 2 eexists; split; vm_compute; reflexivity]. apply ws_blocks.
  apply (bl_text false _ [] _ let_cmd [] (T "let") [] (T " ") [] (T "a b") [] [EOL] [] [] here);
    [reflexivity|reflexivity|repeat split; discriminate|left; cbn; tauto| |apply (en_line false true []); reflexivity|constructor].
  intros z [E|[v [u [E _]]]].
  - destruct z as [|z1 z]; [exact C50_let|]. exfalso. destruct z; discriminate E.
  - destruct v; discriminate E.
Qed.
