(** Properties C52 and C53: the output of the tool under -json. *)
From Coq Require Import Lia ZifyBool ZifyNat ZifyN.
From Verif Require Import Base Utf8 CharClass Reader Vnode Token Ast CmdTable Api Cli Places Nodes LinesProof NodeFacts Join Written PrintBack Rest Extent CmdSpec WrittenScript
  JoinProof CmdArgs Json JsonSpec JsonRead JsonProof PropWrite PropText PropScript PropAst.

(** [chain k n]: there are [k] nodes below [n], each of them in a field of the one before. *)
Inductive chain : nat -> node -> Prop :=
| ch_here n : chain 0 n
| ch_below k n m : In m (fields n) -> chain k m -> chain (S k) n.

Lemma nesting_chain k : forall n, ~ chain (S k) n -> (nesting (gnode n) <= 3 * k + 4)%nat.
Proof.
  induction k as [|k IH]; intros n H.
  - apply (nesting_step n 1); [lia|]. intros m Hm. exfalso. apply H. eapply ch_below; [exact Hm|constructor].
  - replace (3 * S k + 4)%nat with (3 + (3 * k + 4))%nat by lia. apply nesting_step; [lia|]. intros m Hm. apply IH.
    intros K. apply H. eapply ch_below; eauto.
Qed.

(** [reads w args f src]: given the arguments [args], the tool reads one source, [src], and
    the name in positions is [f]. *)
Inductive reads (w : world) : list (list N) -> list N -> source -> Prop :=
| rd_stdin : reads w [] [] (w_stdin w)
| rd_file f src : w_open w f = Some src -> reads w [f] f src.

Lemma run_json rel nv w args f src n : reads w args f src -> ParseFile src f (Some (mkOption nv)) = Returned n ->
  cli_main (go_json rel) (mkFlags nv true) w args =
  Ok (match go_json rel n with Some s => mkCli 0 s [] false | None => mkCli 1 [] [CWrite] false end).
Proof.
  intros [|f' src' Hw] HP; cbn [cli_main cli_files]; [|rewrite Hw]; unfold cli_parse; cbn [f_neovim f_json]; rewrite HP; cbn [bind];
    destruct (go_json rel n); reflexivity.
Qed.

(** C52: the output under -json is one JSON text as RFC 8259 defines it, and a line feed.
    Releases of Go that limit how deeply the output may be nested need a tree that is not
    too high; the limit is 10000, which trees of up to 3332 nodes below one another meet. *)
Theorem C52_json_partial : forall rel nv w args f src n,
  reads w args f src -> ParseFile src f (Some (mkOption nv)) = Returned n ->
  (forall m, r_depth rel = Some m -> exists k, (3 * k + 4 <= m)%nat /\ ~ chain (S k) n) ->
  exists out v, cli_main (go_json rel) (mkFlags nv true) w args = Ok (mkCli 0 (out ++ [10]) [] false) /\
    value v out /\ forall v', json_text v' (out ++ [10]) -> v' = v.
Proof.
  intros rel nv w args f src n Hw HP Hd. set (out := render (r_short rel) 0 (gnode n)).
  exists out, (jval (gnode n)). split; [|split; [apply render_value|]].
  - rewrite (run_json _ _ _ _ _ _ _ Hw HP). unfold go_json, encode_value.
    destruct (r_depth rel) as [m|]; [|reflexivity]. destruct (Hd m eq_refl) as [k [Hk Hc]]. apply nesting_chain in Hc.
    destruct (Nat.leb_spec (nesting (gnode n)) m); [reflexivity|lia].
  - intros v' Hv. eapply json_text_unique; [exact Hv|]. exists [], out, [10]. split; [reflexivity|]. split; [constructor|].
    split; [apply render_value|]. constructor; [cbn; auto|constructor].
Qed.
Print Assumptions C52_json_partial.
Definition one_file (f : list N) (bs : list N) : world :=
  mkWorld (fun g => if text_eqb g f then Some (mkSource bs false) else None) (mkSource [] false).
Definition lines_of (l : list text) : text := concat (map (fun s => s ++ [10]) l).
Example C52_case : cli_main (go_json (mkRelease true (Some 10000%nat))) (mkFlags false true) (one_file (T "a&b") (T """<x>")) [T "a&b"] =
  Ok (mkCli 0 (lines_of
    [ T "{"; T "    ""Start"": {"; T "        ""Offset"": 0,"; T "        ""Line"": 1,"; T "        ""Column"": 1,";
      T "        ""Filename"": ""a\u" ++ T "0026b"""; T "    },"; T "    ""Body"": ["; T "        {"; T "            ""Statement"": null,";
      T "            ""Quote"": {"; T "                ""Offset"": 0,"; T "                ""Line"": 1,";
      T "                ""Column"": 1,"; T "                ""Filename"": ""a\u" ++ T "0026b"""; T "            },";
      T "            ""Text"": ""\u" ++ T "003cx\u" ++ T "003e"""; T "        }"; T "    ]"; T "}" ]) [] false).
Proof. vm_compute. reflexivity. Qed.
(** The tree of that script has one node below the root, so the limit 10000 is kept. *)
Example C52_case_depth : exists n, ParseFile (mkSource (T """<x>") false) (T "a&b") (Some (mkOption false)) = Returned n /\
  chain 1 n /\ exists k, (3 * k + 4 <= 10000)%nat /\ ~ chain (S k) n.
Proof.
  eexists. split; [vm_compute; reflexivity|]. split; [eapply ch_below; [left; reflexivity|constructor]|].
  exists 1%nat. split; [apply Nat.leb_le; vm_compute; reflexivity|]. intros H.
  inversion H as [|? ? ? H1 H2]; subst. destruct H1 as [<-|[]]. inversion H2 as [|? ? ? H3 _]; subst. destruct H3.
Qed.

(** Finding: a release of Go that limits the nesting, to whatever number, refuses the tree
    of some script that the parser accepts. The tool then prints nothing but a complaint.
    The script is "eval" and as many exclamation marks, each on a line of its own. *)
Definition marks_lines (k : nat) : list text := T "eval " :: repeat (T "\!") k ++ [T "\x"].
Fixpoint marks (k : nat) : node := match k with O => id_ (T "x") | S k => NUnary here TNOT (Some (marks k)) end.
Fixpoint count_marks (n : node) : nat := match n with NUnary _ _ (Some m) => S (count_marks m) | _ => O end.

Lemma marks_written k : written false 7 (marks k) (repeat (C "!") k ++ T "x").
Proof.
  induction k as [|k IH]; cbn [marks repeat app]; [letter|].
  apply (wr_unary false (T "!") TNOT here (marks k) _ []); [cbn; auto|exact IH|reflexivity].
Qed.
Lemma marks_count k : count_marks (marks k) = k.
Proof. induction k; cbn; auto. Qed.
Lemma count_map f : forall n, count_marks (map_node f n) = count_marks n.
Proof. fix IH 1. intros n. destruct n; try reflexivity. destruct x as [m|]; [|reflexivity]. cbn [map_node option_map count_marks]. f_equal. apply IH. Qed.
Lemma nesting_in k v l : In (k, v) l -> (S (nesting v) <= nesting (GObj l))%nat.
Proof.
  intros H. cbn [nesting]. apply le_n_S. pose proof (proj1 (list_max_le (map (fun kv => match kv with (_, x) => nesting x end) l) _) (le_n _)) as F.
  rewrite Forall_map in F. rewrite Forall_forall in F. apply (F _ H).
Qed.
Lemma count_nesting : forall n, (count_marks n <= nesting (gnode n))%nat.
Proof.
  fix IH 1. intros n. destruct n; try apply Nat.le_0_l. destruct x as [m|]; [|apply Nat.le_0_l]. cbn [count_marks gnode].
  eapply Nat.le_trans; [apply le_n_S, IH|]. eapply (nesting_in _ (gopt gnode (Some m))). cbn [In]. auto 10.
Qed.
Lemma marks_seen k : seen_lines (lines_of (marks_lines k)) (marks_lines k).
Proof.
  apply (plain_seen _ (marks_lines k)).
  assert (A : Forall (fun l => In l [T "eval "; T "\!"; T "\x"]) (marks_lines k)).
  { unfold marks_lines. constructor; [cbn; auto|]. apply Forall_app. split; [|constructor; [cbn; auto|constructor]].
    apply Forall_forall. intros l Hl. apply repeat_spec in Hl. subst. cbn; auto. }
  assert (B : forall (Q : text -> Prop), Q (T "eval ") -> Q (T "\!") -> Q (T "\x") -> Forall Q (marks_lines k)).
  { intros Q H1 H2 H3. eapply Forall_impl; [|exact A]. intros l [<-|[<-|[<-|[]]]]; auto. }
  split; [|split; [|split]].
  - assert (L : Forall (fun l => ~ has_lf l) (marks_lines k)).
    { apply B; unfold has_lf; cbn; intros H; repeat destruct H as [H|H]; try discriminate H; exact H. }
    clear A B. induction L as [|l ls Hl _ IH]; [constructor|]. unfold lines_of. cbn [map concat]. rewrite <- app_assoc. cbn [app]. constructor; auto.
  - apply B; unfold short; cbn; lia.
  - assert (Q : forall l : text, last l 0 <> 13 -> forall l', l <> l' ++ [13]).
    { intros l Hl l' ->. apply Hl. apply last_last. }
    apply B; apply Q; discriminate.
  - assert (F : forall l : list text, Forall (fun t => utf8 t t) l -> Forall2 utf8 l l) by (induction 1; constructor; auto).
    apply F, B; (split; [reflexivity|repeat constructor]).
Qed.
Lemma marks_unbroken k : unbroken (marks_lines k) [T "eval " ++ repeat (C "!") k ++ T "x"].
Proof.
  replace (repeat (C "!") k ++ T "x") with (concat (repeat (T "!") k ++ [T "x"])).
  2:{ induction k as [|k IH]; [reflexivity|]. cbn [repeat app concat]. rewrite IH. reflexivity. }
  apply (ub_line (T "eval ") _ _ []); [|constructor]. induction k as [|k IH]; cbn [repeat app].
  - apply (ct_more _ []); [split; reflexivity|]. constructor. intros ? ? E; discriminate E.
  - apply (ct_more _ []); [split; reflexivity|]. exact IH.
Qed.
Lemma marks_script k : written_script false [NEval here (head_ false (T "eval")) (Some (marks k))] [T "eval " ++ repeat (C "!") k ++ T "x"].
Proof.
  apply ws_blocks. unfold lines_text. cbn [map concat]. rewrite app_nil_r.
  apply (bl_cmd false _ [] false true _ (chars (T "eval " ++ repeat (C "!") k ++ T "x")) [] [EOL] [] []); [reflexivity| |apply (en_line false true []); reflexivity|constructor].
  apply bc_line. apply (lc_eval false _ false _ (T "eval ")).
  - name_ (T "eval") (T " ").
  - apply (written_le 1 7); [repeat constructor|repeat constructor|apply marks_written].
Qed.
Theorem C52_depth_refuted : forall short m, exists bs n,
  ParseFile (mkSource bs false) (T "f") (Some (mkOption false)) = Returned n /\
  cli_main (go_json (mkRelease short (Some m))) (mkFlags false true) (one_file (T "f") bs) [T "f"] = Ok (mkCli 1 [] [CWrite] false).
Proof.
  intros sh m. destruct (C50_reads_written _ false _ _ _ (T "f") (Some (mkOption false)) (marks_seen (S m)) (marks_unbroken (S m)) (marks_script (S m)))
    as [p [body [HP HU]]].
  exists (lines_of (marks_lines (S m))), (NFile p body). split; [exact HP|].
  cbn [cli_main cli_files]. unfold one_file at 1. cbn [w_open]. change (text_eqb (T "f") (T "f")) with true. cbv iota. unfold cli_parse. cbn [f_neovim f_json].
  rewrite HP. unfold go_json, encode_value. cbn [r_depth].
  destruct (Nat.leb_spec (nesting (gnode (NFile p body))) m) as [L|L]; [exfalso|reflexivity].
  destruct body as [|b [|]]; try discriminate HU. cbn [map] in HU. apply (f_equal (fun l => match l with [NEval _ _ (Some e)] => count_marks e | _ => O end)) in HU.
  unfold unplaced in HU. cbn [map_node option_map] in HU. rewrite count_map, marks_count in HU.
  destruct b; try discriminate HU. destruct expr as [e|]; [|discriminate HU]. cbn [map_node option_map] in HU. rewrite count_map in HU.
  pose proof (count_nesting e) as K.
  assert (K1 : (nesting (gnode e) <= nesting (gnode (NEval p0 ea (Some e))))%nat).
  { eapply Nat.le_trans; [apply Nat.le_succ_diag_r|]. cbn [gnode]. eapply (nesting_in _ (gopt gnode (Some e))). cbn [In]. auto 10. }
  assert (K2 : (nesting (gnode (NEval p0 ea (Some e))) <= nesting (gnode (NFile p [NEval p0 ea (Some e)])))%nat).
  { remember (NEval p0 ea (Some e)) as x. cbn [gnode map gnil nesting list_max fold_right]. lia. }
  lia.
Qed.
Print Assumptions C52_depth_refuted.

(** * C53: the output tells the tree *)

Lemma shown_file n f : (forall m p, within n m -> In p (positions m) -> ap_filename p = f) ->
  map_node (fun q => mkAPos (ap_offset q) (ap_line q) (ap_column q) f) (map_node shown n) = n.
Proof.
  intros H. rewrite map_node_comp. rewrite (map_node_ext _ (fun p => p)); [apply map_node_id|].
  intros m p Hm Hp. rewrite <- (H m p Hm Hp). destruct p; reflexivity.
Qed.
Lemma file_names src f o n m p : ParseFile src f o = Returned n -> within n m -> In p (positions m) -> ap_filename p = f.
Proof.
  intros HP Hm Hp. destruct src as [bs b]. destruct (seen_exists bs) as [ts Hs].
  eapply C06_node_positions; [exact Hs| |exact Hm|exact Hp]. left. eauto.
Qed.
Theorem C53_json_injective : forall rel rel' nv nv' w w' args args' f f' ft ft' src src' n n' out out' v,
  utf8 f ft -> utf8 f' ft' ->
  reads w args f src -> ParseFile src f (Some (mkOption nv)) = Returned n ->
  reads w' args' f' src' -> ParseFile src' f' (Some (mkOption nv')) = Returned n' ->
  cli_main (go_json rel) (mkFlags nv true) w args = Ok (mkCli 0 out [] false) ->
  cli_main (go_json rel') (mkFlags nv' true) w' args' = Ok (mkCli 0 out' [] false) ->
  json_text v out -> json_text v out' -> n = n'.
Proof.
  assert (RUN : forall rel nv w args f src n out, reads w args f src -> ParseFile src f (Some (mkOption nv)) = Returned n ->
    cli_main (go_json rel) (mkFlags nv true) w args = Ok (mkCli 0 out [] false) -> json_text (jval (gnode n)) out).
  { intros rel nv w args f src n out Hw HP HC. rewrite (run_json _ _ _ _ _ _ _ Hw HP) in HC.
    unfold go_json in HC. destruct (encode_value rel (gnode n)) as [t|] eqn:E; [|discriminate HC].
    injection HC as <-. eapply encode_text; eauto. }
  intros rel rel' nv nv' w w' args args' f f' ft ft' src src' n n' out out' v Hf Hf' Hw HP Hw' HP' HC HC' Hv Hv'.
  pose proof (json_text_unique _ _ _ Hv (RUN _ _ _ _ _ _ _ _ Hw HP HC)) as E1.
  pose proof (json_text_unique _ _ _ Hv' (RUN _ _ _ _ _ _ _ _ Hw' HP' HC')) as E2.
  assert (E : map_node shown n = map_node shown n') by (apply written_tree; congruence).
  assert (Ef : f = f').
  { assert (P1 : ap_filename (npos n) = f) by (eapply file_names; [exact HP|constructor|left; reflexivity]).
    assert (P2 : ap_filename (npos n') = f') by (eapply file_names; [exact HP'|constructor|left; reflexivity]).
    assert (Q : forall k, npos (map_node shown k) = shown (npos k)) by (intros []; reflexivity).
    pose proof (f_equal npos E) as K. rewrite !Q in K. apply (f_equal ap_filename) in K. unfold shown in K. cbn [ap_filename] in K.
    rewrite P1, P2, (utf8_decode _ _ Hf), (utf8_decode _ _ Hf') in K. destruct Hf as [-> _], Hf' as [-> _]. congruence. }
  subst f'. rewrite <- (shown_file n f), <- (shown_file n' f).
  - rewrite E. reflexivity.
  - intros m p. apply (file_names _ _ _ _ _ _ HP').
  - intros m p. apply (file_names _ _ _ _ _ _ HP).
Qed.
Print Assumptions C53_json_injective.
(** Trees that differ: the outputs for two scripts, and the values they denote. *)
Definition json_of (f bs : list N) : option text :=
  match cli_main (go_json (mkRelease false None)) (mkFlags false true) (one_file f bs) [f] with Ok x => Some (x_out x) | _ => None end.
Example C53_case : exists n n' out out',
  utf8 (T "f") (T "f") /\ w_open (one_file (T "f") (T "echo 1")) (T "f") = Some (mkSource (T "echo 1") false) /\
  ParseFile (mkSource (T "echo 1") false) (T "f") (Some (mkOption false)) = Returned n /\
  ParseFile (mkSource (T "echo '1'") false) (T "f") (Some (mkOption false)) = Returned n' /\
  json_of (T "f") (T "echo 1") = Some out /\ json_of (T "f") (T "echo '1'") = Some out' /\
  n <> n' /\ out <> out'.
Proof.
  do 4 eexists. split; [split; [reflexivity|repeat constructor]|]. split; [reflexivity|].
  split; [vm_compute; reflexivity|]. split; [vm_compute; reflexivity|]. split; [vm_compute; reflexivity|]. split; [vm_compute; reflexivity|].
  split; discriminate.
Qed.
(** The value that the hypotheses of C53 mention exists for every output. *)
Example C53_case_value : exists v out, json_of (T "f") (T "if x" ++ 10 :: T "call F(1)" ++ 10 :: T "endif") = Some out /\ json_text v out.
Proof.
  destruct (ParseFile (mkSource (T "if x" ++ 10 :: T "call F(1)" ++ 10 :: T "endif") false) (T "f") (Some (mkOption false))) as [n| |] eqn:E;
    [|exfalso; revert E; vm_compute; discriminate..].
  exists (jval (gnode n)), (render false 0 (gnode n) ++ [10]). split.
  - unfold json_of. cbn [cli_main cli_files one_file w_open]. change (text_eqb (T "f") (T "f")) with true. cbv iota. unfold cli_parse.
    cbn [f_neovim f_json]. rewrite E. reflexivity.
  - exists [], (render false 0 (gnode n)), [10]. split; [reflexivity|]. split; [constructor|]. split; [apply render_value|]. constructor; [cbn; auto|constructor].
Qed.
(** Finding: file names that are not UTF-8 are not kept apart. *)
Theorem C53_names_refuted : exists f f' bs n n' out,
  ParseFile (mkSource bs false) f (Some (mkOption false)) = Returned n /\
  ParseFile (mkSource bs false) f' (Some (mkOption false)) = Returned n' /\ n <> n' /\
  json_of f bs = Some out /\ json_of f' bs = Some out.
Proof.
  exists [255], [254], (T "echo 1"). do 3 eexists. split; [vm_compute; reflexivity|]. split; [vm_compute; reflexivity|]. split; [discriminate|].
  split; vm_compute; reflexivity.
Qed.
Print Assumptions C53_names_refuted.
