(** Property C77: comments, blank lines and a #! line at the top of a file. *)
From Coq Require Import Lia ZifyBool ZifyNat ZifyN.
From Verif Require Import Base Utf8 CharClass Reader Vnode CmdTable CmdParser Cursor Ast Export Api Places LinesProof NodeText Nodes Join JoinProof PropText Sequel SequelProof ArgsProof
  Written Rest WrittenScript PropScript PropSequel ApiExpr ApiFile CmdBase CmdLoop PropBlank PlacesProof.
From Verif Require Import Sequel.

(** * Specification *)

(** The lines of a header and the nodes of the comments in it: [d] is the number of bytes
    before these lines, [n] the number of the first of them. *)
Inductive header (file : list N) : N -> N -> list text -> list node -> Prop :=
| hd_end d n : header file d n [] []
| hd_blank d n l ls b : blank_line l ->
    header file (d + blen l + 1) (n + 1) ls b -> header file d n (l :: ls) b
| hd_hashbang d n t ls b :
    header file (d + blen (T "#!" ++ t) + 1) (n + 1) ls b -> header file d n ((T "#!" ++ t) :: ls) b
| hd_comment d n ws u ls b : blank_line ws ->
    header file (d + blen (ws ++ 34 :: u) + 1) (n + 1) ls b ->
    header file d n ((ws ++ 34 :: u) :: ls)
      (NComment (mkAPos (d + blen ws) n (blen ws + 1) file) u :: b).

(** The characters and line ends of some lines. *)
Definition line_chars (ls : list text) : N := N.of_nat (length (lines_text ls)).

(** * Proof *)

Lemma header_starts file d n ls b ts : header file d n ls b -> starts_line ts -> starts_line (ls ++ ts).
Proof.
  intros H Ht. inversion H; subst; [exact Ht|..]; intros l' r E; injection E as <- _.
  - apply blank_not_cont; auto.
  - intros K. apply continuation_iff in K. discriminate K.
  - intros [vs [t' [E W]]]. clear H H1. revert ws H0 E. induction vs as [|v vs IH]; intros ws Hw E.
    + destruct ws as [|w ws]; [discriminate E|]. injection E as -> _. inversion Hw as [|? ? K _]; subst. destruct K as [K|[K|K]]; discriminate K.
    + cbn [forallb] in W. apply andb_true_iff in W. destruct W as [K W]. destruct ws as [|w ws]; [injection E as <- _; discriminate K|].
      injection E as -> E. inversion Hw; subst. apply (IH W ws); auto.
Qed.
Lemma first_spells t k : forall i ln col off, spells t (put_first t i ln col off k) (k (i + N.of_nat (length t))).
Proof.
  induction t as [|r t IH]; intros i ln col off; cbn [put_first length].
  - rewrite N.add_0_r. reflexivity.
  - replace (i + N.of_nat (S (length t))) with (i + 1 + N.of_nat (length t)) by lia. split; [reflexivity|apply IH].
Qed.
Lemma first_app a b k : forall i ln col off, put_first (a ++ b) i ln col off k =
  put_first a i ln col off (fun j => put_first b j ln (col + blen a) (off + blen a) k).
Proof.
  induction a as [|r a IH]; intros i ln col off; cbn [put_first app blen].
  - rewrite !N.add_0_r. reflexivity.
  - rewrite IH, !N.add_assoc. reflexivity.
Qed.
Lemma skip_cons g r p c : g r = true -> skip_while g (Cons (R r) p c) = skip_while g c.
Proof. intros H. unfold skip_while. cbn [read_while]. rewrite H. destruct (read_while g c). reflexivity. Qed.
Lemma skip_blank ws k : blank_line ws -> forall i ln col off,
  skip_white_and_colon (put_first ws i ln col off k) = skip_white_and_colon (k (i + N.of_nat (length ws))).
Proof.
  unfold skip_white_and_colon. induction 1 as [|r ws Hr H IH]; intros i ln col off; cbn [put_first length].
  - rewrite N.add_0_r. reflexivity.
  - replace (i + N.of_nat (S (length ws))) with (i + 1 + N.of_nat (length ws)) by lia.
    rewrite skip_cons; [apply IH|]. destruct Hr as [->|[->| ->]]; reflexivity.
Qed.
Lemma other_hash r p c : r <> 35 -> text_eqb (peekn 2 (Cons (R r) p c)) (T "#!") = false.
Proof.
  intros H. assert (E : peekn 2 (Cons (R r) p c) = r :: peekn 1 c) by (unfold peekn; destruct c as [|[|]]; reflexivity).
  rewrite E. destruct (text_eqb _ _) eqn:Q; auto. apply text_eqb_eq in Q. injection Q as Q _. congruence.
Qed.
Lemma blank_hash ws c : blank_line ws -> (forall p t, c <> Cons (R 35) p t) -> forall k i ln col off, k (i + N.of_nat (length ws)) = c ->
  text_eqb (peekn 2 (put_first ws i ln col off k)) (T "#!") = false.
Proof.
  intros H Hc k i ln col off E. destruct H as [|r ws Hr H]; cbn [put_first length] in *.
  - rewrite N.add_0_r in E. rewrite E. destruct c as [p|x p t]; [reflexivity|]. destruct x as [|r]; [reflexivity|].
    apply other_hash. intros ->. exact (Hc p t eq_refl).
  - apply other_hash. destruct Hr as [->|[->| ->]]; discriminate.
Qed.
Lemma first_busy t k i ln col off p z : k (i + N.of_nat (length t)) = Cons EOL p z -> is_eof (put_first t i ln col off k) = false.
Proof. destruct t; cbn [put_first length]; [rewrite N.add_0_r; intros ->; reflexivity|reflexivity]. Qed.

Section Steps.
Context (nv : bool) (f : frame) (k : N -> cursor) (p : pos) (z : cursor) (ch : list (text * option cmd)).
Lemma blank_step l i ln off m : blank_line l -> k (i + N.of_nat (length l)) = Cons EOL p z ->
  cmds_loop nv (S m) (mkSt (put_first l i ln 0 off k) [f] ch) = cmds_loop nv m (mkSt z [f] ch).
Proof.
  intros H E. cbn [cmds_loop cur]. rewrite (first_busy _ _ _ _ _ _ _ _ E). unfold parse_one_cmd. cbn [cur].
  rewrite (blank_hash l (Cons EOL p z)); auto; [|discriminate]. rewrite skip_blank, E; auto. 
Qed.
Lemma hashbang_step t i ln off m : k (i + N.of_nat (length (T "#!" ++ t))) = Cons EOL p z ->
  cmds_loop nv (S m) (mkSt (put_first (T "#!" ++ t) i ln 0 off k) [f] ch) = cmds_loop nv m (mkSt z [f] ch).
Proof.
  intros E. cbn [cmds_loop cur]. rewrite (first_busy _ _ _ _ _ _ _ _ E). unfold parse_one_cmd. cbn [cur].
  replace (text_eqb _ _) with true by reflexivity.
  pose proof (first_spells (T "#!" ++ t) k i ln 0 off) as Sp. rewrite E in Sp. rewrite (getn_all_exact _ _ _ _ Sp). reflexivity.
Qed.
Lemma comment_step ws u i ln off m : blank_line ws -> k (i + N.of_nat (length (ws ++ 34 :: u))) = Cons EOL p z ->
  cmds_loop nv (S m) (mkSt (put_first (ws ++ 34 :: u) i ln 0 off k) [f] ch) =
    cmds_loop nv m (mkSt z [add_body (VComment (mkPos (i + N.of_nat (length ws)) ln (blen ws + 1) (off + blen ws)) u) f] ch).
Proof.
  intros H E. cbn [cmds_loop cur]. rewrite (first_busy _ _ _ _ _ _ _ _ E). unfold parse_one_cmd. cbn [cur]. rewrite first_app.
  set (k' := fun j => put_first (34 :: u) j ln (0 + blen ws) (off + blen ws) k).
  rewrite (blank_hash ws (k' (i + N.of_nat (length ws)))); auto; [|unfold k'; cbn [put_first]; intros ? ? Q; discriminate Q].
  rewrite (skip_blank ws k' H).
  assert (Ek : k' (i + N.of_nat (length ws)) = Cons (R 34) (mkPos (i + N.of_nat (length ws)) ln (blen ws + 1) (off + blen ws))
     (put_first u (i + N.of_nat (length ws) + 1) ln (0 + blen ws + rune_len 34) (off + blen ws + rune_len 34) k)) by reflexivity.
  rewrite Ek. set (c := put_first u _ _ _ _ _).
  assert (Sp : spells u c (Cons EOL p z)).
  { rewrite <- E. unfold c. replace (i + N.of_nat (length (ws ++ 34 :: u))) with (i + N.of_nat (length ws) + 1 + N.of_nat (length u)); [apply first_spells|].
    rewrite app_length. cbn [length]. lia. }
  change (skip_white_and_colon (Cons (R 34) (mkPos (i + N.of_nat (length ws)) ln (blen ws + 1) (off + blen ws)) c))
    with (Cons (R 34) (mkPos (i + N.of_nat (length ws)) ln (blen ws + 1) (off + blen ws)) c).
  cbn [peek1]. change (34 =? C """") with true. cbn match. unfold parse_comment. cbn [cur with_cur get ch_of_cell].
  change (negb (ch_is (ch_of_cell (R 34)) (C """"))) with false. cbn match. rewrite (getn_all_exact _ _ _ _ Sp). reflexivity.
Qed.
End Steps.

Lemma line_chars_cons l ls : line_chars (l :: ls) = N.of_nat (length l) + 1 + line_chars ls.
Proof.
  unfold line_chars. change (lines_text (l :: ls)) with ((chars l ++ [EOL]) ++ lines_text ls). rewrite !app_length. unfold chars at 1. rewrite map_length. cbn [length]. lia.
Qed.
Lemma behind_next l ts i n o : starts_line ts -> exists p, forall j, j = i + N.of_nat (length l) ->
  build_more ts j n (blen l) (o + blen l) = Cons EOL p (behind ts (i + N.of_nat (length l) + 1) (n + 1) (o + blen l + 1)).
Proof. intros H. eexists. intros j ->. rewrite behind_last; auto. Qed.
Lemma sfx_first t k : forall i ln col off, sfx (k (i + N.of_nat (length t))) (put_first t i ln col off k).
Proof.
  induction t as [|r t IH]; intros i ln col off; cbn [put_first length]; [rewrite N.add_0_r; constructor|].
  constructor. replace (i + N.of_nat (S (length t))) with (i + 1 + N.of_nat (length t)) by lia. apply IH.
Qed.
Lemma clen_line l ts i n o : starts_line ts ->
  clen (behind (l :: ts) i n o) = S (length l + clen (behind ts (i + N.of_nat (length l) + 1) (n + 1) (o + blen l + 1))).
Proof. intros H. cbn [behind]. rewrite clen_first, behind_last; auto. cbn [clen]. lia. Qed.
Lemma sfx_line l ts i n o : starts_line ts -> sfx (behind ts (i + N.of_nat (length l) + 1) (n + 1) (o + blen l + 1)) (behind (l :: ts) i n o).
Proof. intros H. cbn [behind]. eapply sfx_trans; [|apply sfx_first]. rewrite behind_last; auto. constructor. constructor. Qed.

Lemma header_run nv ch file d n ls b ts : header file d n ls b -> starts_line ts -> forall i f, exists vs k,
  mapM (export_stmt file) vs = Ok b /\
  (forall m, cmds_loop nv (k + m) (mkSt (behind (ls ++ ts) i n d) [f] ch) =
     cmds_loop nv m (mkSt (behind ts (i + line_chars ls) (n + N.of_nat (length ls)) (d + line_bytes ls)) [mkFrame (f_kind f) (f_pos f) (f_ea f) (f_body f ++ vs)] ch)) /\
  (k + clen (behind ts (i + line_chars ls) (n + N.of_nat (length ls)) (d + line_bytes ls)) <= clen (behind (ls ++ ts) i n d))%nat /\
  sfx (behind ts (i + line_chars ls) (n + N.of_nat (length ls)) (d + line_bytes ls)) (behind (ls ++ ts) i n d).
Proof.
  intros H Ht. induction H as [d n|d n l ls b Hl H IH|d n t ls b H IH|d n ws u ls b Hw H IH]; intros i f.
  - exists [], O. change (line_chars []) with 0. cbn [length line_bytes app]. change (N.of_nat 0) with 0. rewrite !N.add_0_r. split; [reflexivity|]. split; [|split; [lia|constructor]].
    intros m. rewrite app_nil_r. destruct f; reflexivity.
  - pose proof (header_starts _ _ _ _ _ _ H Ht) as Hs. destruct (IH (i + N.of_nat (length l) + 1) f) as [vs [k [E [R1 [R2 R3]]]]].
    exists vs, (S k). rewrite line_chars_cons. cbn [length line_bytes app].
    replace (i + (N.of_nat (length l) + 1 + line_chars ls)) with (i + N.of_nat (length l) + 1 + line_chars ls) by lia.
    replace (n + N.of_nat (S (length ls))) with (n + 1 + N.of_nat (length ls)) by lia.
    replace (d + (blen l + 1 + line_bytes ls)) with (d + blen l + 1 + line_bytes ls) by lia.
    split; auto. split; [|split].
    + intros m. rewrite <- R1. cbn [behind Nat.add]. destruct (behind_next l (ls ++ ts) i n d Hs) as [p Ep]. eapply blank_step; eauto. 
    + rewrite clen_line; auto. lia.
    + eapply sfx_trans; [exact R3|]. apply sfx_line; auto.
  - pose proof (header_starts _ _ _ _ _ _ H Ht) as Hs. set (l := T "#!" ++ t) in *. destruct (IH (i + N.of_nat (length l) + 1) f) as [vs [k [E [R1 [R2 R3]]]]].
    exists vs, (S k). rewrite line_chars_cons. cbn [length line_bytes].  change ((l :: ls) ++ ts) with (l :: (ls ++ ts)).
    replace (i + (N.of_nat (length l) + 1 + line_chars ls)) with (i + N.of_nat (length l) + 1 + line_chars ls) by lia.
    replace (n + N.of_nat (S (length ls))) with (n + 1 + N.of_nat (length ls)) by lia.
    replace (d + (blen l + 1 + line_bytes ls)) with (d + blen l + 1 + line_bytes ls) by lia.
    split; auto. split; [|split].
    + intros m. rewrite <- R1. cbn [behind Nat.add]. destruct (behind_next l (ls ++ ts) i n d Hs) as [p Ep]. eapply hashbang_step; eauto. 
    + rewrite clen_line; auto. lia.
    + eapply sfx_trans; [exact R3|]. apply sfx_line; auto.
  - pose proof (header_starts _ _ _ _ _ _ H Ht) as Hs. set (l := ws ++ 34 :: u) in *.
    set (v := VComment (mkPos (i + N.of_nat (length ws)) n (blen ws + 1) (d + blen ws)) u).
    destruct (IH (i + N.of_nat (length l) + 1) (add_body v f)) as [vs [k [E [R1 [R2 R3]]]]].
    exists (v :: vs), (S k). rewrite line_chars_cons. cbn [length line_bytes].  change ((l :: ls) ++ ts) with (l :: (ls ++ ts)).
    replace (i + (N.of_nat (length l) + 1 + line_chars ls)) with (i + N.of_nat (length l) + 1 + line_chars ls) by lia.
    replace (n + N.of_nat (S (length ls))) with (n + 1 + N.of_nat (length ls)) by lia.
    replace (d + (blen l + 1 + line_bytes ls)) with (d + blen l + 1 + line_bytes ls) by lia.
    split; [|split; [|split]].
    + cbn [mapM]. rewrite E. reflexivity.
    + intros m. replace (f_body f ++ v :: vs) with (f_body (add_body v f) ++ vs) by (cbn [add_body f_body]; rewrite <- app_assoc; reflexivity).
      change (f_kind f) with (f_kind (add_body v f)). change (f_pos f) with (f_pos (add_body v f)). change (f_ea f) with (f_ea (add_body v f)).
      rewrite <- R1. cbn [behind Nat.add]. destruct (behind_next l (ls ++ ts) i n d Hs) as [p Ep]. eapply comment_step; eauto. 
    + rewrite clen_line; auto. lia.
    + eapply sfx_trans; [exact R3|]. apply sfx_line; auto.
Qed.
Lemma header_length file d n ls b : header file d n ls b -> forall i, N.of_nat (clen (behind ls i n d)) = line_chars ls.
Proof.
  intros H. assert (S0 : starts_line []) by (intros ? ? E; discriminate E).
  induction H as [d n|d n l ls b Hl H IH|d n t ls b H IH|d n ws u ls b Hw H IH]; intros i; [reflexivity|..];
    pose proof (header_starts _ _ _ _ _ _ H S0) as Hs; rewrite app_nil_r in Hs; rewrite clen_line, line_chars_cons by auto;
    match goal with |- context [behind ls ?j _ _] => rewrite <- (IH j) end; lia.
Qed.

(** * C77 *)
Theorem C77_header : forall bs bs' fails fails' ls ts cs file opt,
  header file 0 1 ls cs -> ls <> [] ->
  seen_lines bs ts -> starts_line ts -> seen_lines bs' (ls ++ ts) ->
  (forall q b, ParseFile (mkSource bs fails) file opt = Returned (NFile q b) ->
     ParseFile (mkSource bs' fails') file opt =
       Returned (NFile (mkAPos 0 1 1 file) (cs ++ map (map_node (moved (line_bytes ls) (N.of_nat (length ls)))) b))) /\
  (forall e, ParseFile (mkSource bs fails) file opt = Failed e ->
     ParseFile (mkSource bs' fails') file opt = Failed (moved_error (line_chars ls) (N.of_nat (length ls)) e)).
Proof.
  intros bs bs' fl fl' ls ts cs file opt H N H1 HS H2.
  pose proof (header_length _ _ _ _ _ H 0) as Len. rewrite <- behind_reader in Len.
  pose proof (open_source_wf (mkSource bs fl)) as W1. pose proof (open_source_wf (mkSource bs' fl')) as W2. rewrite (seen_open _ _ _ H1) in W1. rewrite (seen_open _ _ _ H2) in W2.
  set (c := new_reader (ls ++ ts)) in *.
  destruct (header_run (neovim_of opt) [] file 0 1 ls cs ts H HS 0 (mkFrame FTop (getpos c) ea0 [])) as [vs [k [E [R1 [R2 R3]]]]].
  rewrite <- behind_reader in R1, R2, R3. fold c in R1, R2, R3. rewrite !N.add_0_l, <- Len in R1, R2, R3. cbn [f_kind f_pos f_ea f_body app] in R1.
  assert (P : new_pos file (getpos c) = mkAPos 0 1 1 file).
  { unfold c. rewrite behind_reader. destruct ls as [|l ls']; [congruence|]. cbn [app behind]. destruct l as [|r l]; [|reflexivity]. cbn [put_first].
    rewrite behind_last; [reflexivity|]. inversion H; subst; eapply header_starts; eauto. }
  rewrite <- P. unfold line_chars in Len |- *.
  apply (sequel_export bs bs' fl fl' ls ts (lines_text ls) file opt (getpos c) vs cs H1 H2); auto; [lia|].
  apply (vim_sequel0 _ _ _ (Eof (mkPos 0 0 0 0))); auto.
  - intros w [U _] [pre [post Q]]. destruct w as [|r w]; [discriminate U|]. destruct pre; discriminate Q.
  - exists k, []. split; [exact R1|]. split; [exact R2|]. split; [exact R3|]. split; [constructor|intros ? ? []].
Qed.
Print Assumptions C77_header.
(** A #! line, two comments, one of them indented, and an empty line, above the second text
    of the case of C57, whose first command has a name that starts like a word of a comment;
    and above a text that is rejected. *)
Definition C77_top : list N :=
  T "#!/usr/bin/vim -S" ++ [10] ++ T """ Foo is a command" ++ [10] ++ [10] ++ T " :"" second" ++ [10].
Example C77_case : exists ls cs ts q b,
  header (T "f.vim") 0 1 ls cs /\ ls <> [] /\ length ls = 4%nat /\
  cs = [NComment (mkAPos 18 2 1 (T "f.vim")) (T " Foo is a command"); NComment (mkAPos 40 4 3 (T "f.vim")) (T " second")] /\
  seen_lines C57_second ts /\ starts_line ts /\ seen_lines (C77_top ++ C57_second) (ls ++ ts) /\
  ParseFile (mkSource C57_second false) (T "f.vim") None = Returned (NFile q b) /\ length b = 2%nat.
Proof.
  exists [T "#!/usr/bin/vim -S"; T """ Foo is a command"; []; T " :"" second"].
  exists [NComment (mkAPos 18 2 1 (T "f.vim")) (T " Foo is a command"); NComment (mkAPos 40 4 3 (T "f.vim")) (T " second")].
  exists [T "Foo1 a"; T "function! F(a)"; T "  return"; T "  \ a"; T "endfunction"]. do 2 eexists.
  split.
  { apply (hd_hashbang _ 0 1 (T "/usr/bin/vim -S")). apply (hd_comment _ 18 2 [] (T " Foo is a command")); [constructor|].
    apply hd_blank; [constructor|]. apply (hd_comment _ 38 4 (T " :") (T " second")); [|constructor].
    unfold blank_line. repeat first [apply Forall_nil|apply Forall_cons]; auto. }
  split; [discriminate|]. split; [reflexivity|]. split; [reflexivity|].
  split; [apply (seen_lines_iff _ _ false); vm_compute; reflexivity|].
  split; [intros l r E; injection E as <- <-; apply not_continuation; vm_compute; reflexivity|].
  split; [apply (seen_lines_iff _ _ false); vm_compute; reflexivity|]. split; [vm_compute; reflexivity|]. reflexivity.
Qed.
Example C77_case_error : exists ls cs ts e,
  header [] 0 1 ls cs /\ ls <> [] /\ seen_lines (T "echo (" ++ [10]) ts /\ starts_line ts /\
  seen_lines (T """ x" ++ [10] ++ T "echo (" ++ [10]) (ls ++ ts) /\
  ParseFile (mkSource (T "echo (" ++ [10]) false) [] None = Failed e.
Proof.
  exists [T """ x"], [NComment (mkAPos 0 1 1 []) (T " x")], [T "echo ("]. eexists.
  split; [apply (hd_comment _ 0 1 [] (T " x")); constructor|]. split; [discriminate|].
  split; [apply (seen_lines_iff _ _ false); vm_compute; reflexivity|].
  split; [intros l r E; injection E as <- <-; apply not_continuation; vm_compute; reflexivity|].
  split; [apply (seen_lines_iff _ _ false); vm_compute; reflexivity|]. vm_compute. reflexivity.
Qed.

(** The same lines between two parts of a file, at the top level, the first of which is as in
    C57. Only words of the first part matter, not those in the comments. *)
Lemma header_clen file tsA ls cs : tsA <> [] -> header file (line_bytes tsA) (1 + N.of_nat (length tsA)) ls cs ->
  N.of_nat (clen (new_reader (tsA ++ ls))) = N.of_nat (clen (new_reader tsA)) + line_chars ls.
Proof.
  intros N H. assert (S0 : starts_line []) by (intros ? ? E; discriminate E). pose proof (header_starts _ _ _ _ _ _ H S0) as Hs. rewrite app_nil_r in Hs.
  destruct tsA as [|t ts]; [congruence|]. pose proof (behind_open t ts _ Hs) as Sp. cbv zeta in Sp. apply probe_cells in Sp.
  rewrite <- (header_length _ _ _ _ _ H (N.of_nat (clen (new_reader (t :: ts))))).
  rewrite <- !view_length, <- !(map_length cell_of), Sp, app_length, !map_length, !view_length. lia.
Qed.
Theorem C77_between : forall bsA bsB bs failsA failsB fails tsA ls tsB cells cs file opt p a,
  seen_lines bsA tsA -> tsA <> [] -> source_cells bsA cells ->
  ParseFile (mkSource bsA failsA) file opt = Returned (NFile p a) -> self_contained a ->
  header file (line_bytes tsA) (1 + N.of_nat (length tsA)) ls cs ->
  seen_lines bsB tsB -> starts_line tsB -> apart bsA bsB ->
  seen_lines bs (tsA ++ ls ++ tsB) ->
  (forall q b, ParseFile (mkSource bsB failsB) file opt = Returned (NFile q b) ->
     ParseFile (mkSource bs fails) file opt =
       Returned (NFile p (a ++ cs ++ map (map_node (moved (line_bytes tsA + line_bytes ls) (N.of_nat (length tsA + length ls)))) b))) /\
  (forall e, ParseFile (mkSource bsB failsB) file opt = Failed e ->
     ParseFile (mkSource bs fails) file opt =
       Failed (moved_error (N.of_nat (length cells) + line_chars ls) (N.of_nat (length tsA + length ls)) e)).
Proof.
  intros bsA bsB bs ra rb r tsA ls tsB cells cs file opt p a LA NA CA HA HC H LB SB Ap L.
  pose proof (header_starts _ _ _ _ _ _ H SB) as SL.
  pose proof (open_source_wf (mkSource bsA ra)) as WA. pose proof (open_source_wf (mkSource bsB rb)) as WB. pose proof (open_source_wf (mkSource bs r)) as W.
  assert (Hap : forall w, digit_word (open_source (mkSource bsB rb)) w -> ~ stands (open_source (mkSource bsA ra)) w).
  { intros w [U [Al [d [Hd Hs]]]] Hw. apply (occurs_stands bsA ra) in Hw. apply (occurs_stands bsB rb) in Hs. revert Hw.
    apply (Ap w d); auto using capital_upper. unfold isdigit, between in Hd. lia. }
  apply (source_view _ ra) in CA. pose proof (view_length (open_source (mkSource bsA ra))) as Lc. rewrite <- CA in Lc. clear CA.
  pose proof (vim_parse_safe (neovim_of opt) _ WA) as V.
  unfold ParseFile, parse_to_ast in HA. fold (neovim_of opt) in HA. rewrite (seen_open _ _ _ LA), (seen_open _ _ _ LB), (seen_open _ _ _ L) in *.
  destruct (vim_parse (neovim_of opt) (new_reader tsA)) as [vA|?|?|] eqn:EA; try discriminate HA. cbn [bind csafe] in *.
  pose proof V as [vs [c1 [c' [-> _]]]].
  assert (Ep : new_ast file (VToplevel (getpos (new_reader tsA)) vs) = Ok (NFile p a)) by (destruct (new_ast file _); try discriminate HA; injection HA as ->; auto).
  cbn [new_ast] in Ep. fold (export_stmt file) in Ep. destruct (mapM (export_stmt file) vs) as [a'| | |] eqn:Ea; try discriminate Ep. cbn [bind] in Ep. injection Ep as <- ->.
  pose proof (contained_closed _ _ _ _ _ _ V Ea HC) as Cl.
  destruct (first_part _ _ _ _ _ NA SL WA W EA Cl) as [k1 [ch [R1 [R2 [R3 [R4 R5]]]]]].
  pose proof (header_clen _ _ _ _ NA H) as Len.
  destruct (header_run (neovim_of opt) ch file _ _ ls cs tsB H SB (N.of_nat (clen (new_reader tsA))) (mkFrame FTop (getpos (new_reader tsA)) ea0 vs)) as [us [k2 [E [Q1 [Q2 Q3]]]]].
  cbn [f_kind f_pos f_ea f_body] in Q1. fold (SequelProof.after tsA (ls ++ tsB)) in Q1, Q2, Q3.
  replace (behind tsB _ _ _) with (SequelProof.after (tsA ++ ls) tsB) in Q1, Q2, Q3
    by (unfold SequelProof.after; rewrite Len, line_bytes_app, app_length; f_equal; lia).
  rewrite app_assoc in L, W, R1, R2, R3.
  assert (Eu : mapM (export_stmt file) (vs ++ us) = Ok (a ++ cs)) by (apply mapM_app; auto).
  assert (Lu : length (repeat tt (clen (new_reader (tsA ++ ls)))) = clen (new_reader (tsA ++ ls))) by apply repeat_length.
  destruct (sequel_export bsB bs rb r (tsA ++ ls) tsB _ file opt (getpos (new_reader tsA)) (vs ++ us) (a ++ cs) LB L Lu Eu) as [X Y].
  - apply (vim_sequel0 _ _ _ (new_reader tsA)); auto. exists (k1 + k2)%nat, ch.
    split; [intros m; rewrite <- Nat.add_assoc, R1; apply Q1|]. split; [lia|]. split; [eapply sfx_trans; eauto|]. auto.
  - rewrite Lu, Len, <- Lc, app_length in Y. rewrite line_bytes_app, app_length in X. split; auto. intros q b E0. rewrite app_assoc. exact (X q b E0).
Qed.
Print Assumptions C77_between.

(** At the end of a file. *)
Theorem C77_footer : forall bsA bs failsA fails tsA ls cs file opt p a,
  seen_lines bsA tsA -> tsA <> [] ->
  ParseFile (mkSource bsA failsA) file opt = Returned (NFile p a) -> self_contained a ->
  header file (line_bytes tsA) (1 + N.of_nat (length tsA)) ls cs ->
  seen_lines bs (tsA ++ ls) ->
  ParseFile (mkSource bs fails) file opt = Returned (NFile p (a ++ cs)).
Proof.
  intros bsA bs ra r tsA ls cs file opt p a LA NA HA HC H L. destruct (source_exists bsA) as [cells Hc].
  assert (L0 : seen_lines [] []) by (apply (seen_lines_iff _ _ false); vm_compute; reflexivity).
  assert (S0 : starts_line []) by (intros ? ? E; discriminate E).
  destruct (blank_file [] false [] file opt L0 (Forall_nil _)) as [q Hq].
  rewrite <- (app_nil_r ls) in L.
  destruct (C77_between bsA [] bs ra false r tsA ls [] cells cs file opt p a LA NA Hc HA HC H L0 S0 (apart_blank _ _ _ L0 (Forall_nil _)) L) as [X _].
  rewrite (X q [] Hq). cbn [map]. rewrite app_nil_r. reflexivity.
Qed.
Print Assumptions C77_footer.
(** A comment and an empty line between the texts of the case of C57, and the same lines
    below the first of them. *)
Definition C77_middle : list N := T "  "" Foo1 is next" ++ [10] ++ [10].
Example C77_case_between : exists tsA ls tsB cells cs p a q b,
  seen_lines C57_first tsA /\ tsA <> [] /\ source_cells C57_first cells /\
  ParseFile (mkSource C57_first false) [] None = Returned (NFile p a) /\ self_contained a /\ length a = 2%nat /\
  header [] (line_bytes tsA) (1 + N.of_nat (length tsA)) ls cs /\ length ls = 2%nat /\
  cs = [NComment (mkAPos (line_bytes tsA + 2) 6 3 []) (T " Foo1 is next")] /\
  seen_lines C57_second tsB /\ starts_line tsB /\ apart C57_first C57_second /\
  seen_lines (C57_first ++ C77_middle ++ C57_second) (tsA ++ ls ++ tsB) /\ seen_lines (C57_first ++ C77_middle) (tsA ++ ls) /\
  ParseFile (mkSource C57_second false) [] None = Returned (NFile q b) /\ length b = 2%nat.
Proof.
  exists [T "let x = 1"; T "if x"; T "  echo x |"; T "\ call f()"; T "endif"], [T "  "" Foo1 is next"; []], [T "Foo1 a"; T "function! F(a)"; T "  return"; T "  \ a"; T "endfunction"].
  exists (view (open_source (mkSource C57_first false))). do 5 eexists.
  split; [apply (seen_lines_iff _ _ false); vm_compute; reflexivity|]. split; [discriminate|].
  split; [apply (source_view _ false); reflexivity|]. split; [vm_compute; reflexivity|].
  split; [split|].
  - intros n [<-|[<-|[]]] [? [? [? [? [E _]]]]]; discriminate E.
  - intros n r E [? [? [? [? [-> _]]]]]. destruct r as [|? [|? [|]]]; discriminate E.
  - split; [reflexivity|].
    split.
    { apply (hd_comment _ _ _ (T "  ") (T " Foo1 is next")); [unfold blank_line; repeat first [apply Forall_nil|apply Forall_cons]; auto|].
      apply hd_blank; constructor. }
    split; [reflexivity|]. split; [reflexivity|].
    split; [apply (seen_lines_iff _ _ false); vm_compute; reflexivity|].
    split; [intros l r E; injection E as <- <-; apply not_continuation; vm_compute; reflexivity|]. split; [apply C57_apart|].
    split; [apply (seen_lines_iff _ _ false); vm_compute; reflexivity|]. split; [apply (seen_lines_iff _ _ false); vm_compute; reflexivity|].
    split; [vm_compute; reflexivity|]. reflexivity.
Qed.
