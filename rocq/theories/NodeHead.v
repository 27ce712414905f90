(** The head of every command of an accepted script. *)
From Coq Require Import Lia ZifyBool ZifyNat ZifyN.
From Verif Require Import Base Utf8 CharClass Reader Vnode Token Ast CmdTable Cursor Grammar TokSafe ExprSafe
  ExprParser CmdParser Export ExportSafe Script CmdBase CmdArgs HeadProof CmdPieces CmdOpen ScriptExport Api ApiExpr ApiFile
  Places PlacesProof LinesProof ReaderFacts Nodes Derived Shape NodeText NodeFacts CmdSpec.

Lemma file_parsed bs b file opt root n : ParseFile (mkSource bs b) file opt = Returned root -> within root n ->
  exists lp fn, parsed (with_neovim opt) (open_source (mkSource bs b)) file lp fn n.
Proof.
  intros H Hn. destruct (within_inside _ _ Hn) as [lp [fn Hi]]. exists lp, fn.
  eapply parsed_inside; eauto.
  destruct (ParseFile_cases (mkSource bs b) file opt) as [[v [p [body [H1 [H2 H3]]]]]|[[msg [s [_ H3]]]|[k [_ H3]]]];
    rewrite H3 in H; inversion H; subst.
  destruct H1 as [body' [c1 [c' [-> [H1 [_ _]]]]]]. exists (VToplevel (getpos (open_source (mkSource bs b))) body').
  split; auto. eapply de_file; eauto. constructor.
Qed.

(** The internal form: a header, or modifiers without a command. *)
Definition vhead neovim B (e : exarg) : Prop :=
  (exists a b d c x, sfx a B /\ header neovim a b d c x e) \/
  (exists a c lead rest, sfx a B /\ same_line a c /\ (at_end c \/ peek1 c = Some (C """")) /\
    ea_linepos e = Some (getpos a) /\ ea_cmdpos e = Some (getpos c) /\ ea_argpos e = None /\ ea_cmd e = None /\
    (ea_modifiers e <> [] \/ ea_range e <> []) /\
    spells lead a c /\ rest_of c rest /\ lead_text (head_of e) lead rest).
Lemma head_vhead neovim B P a b d c e : head neovim P a b d c e -> sfx a B -> vhead neovim B e.
Proof. intros [x [H _]] Ha. left. eauto 10. Qed.
Lemma derived_head neovim B lp fn v e : derived neovim B lp fn v -> vea v = Some e -> vhead neovim B e.
Proof.
  intros H E. destruct H; try discriminate E.
  - pose proof (dexpr_low _ _ _ _ H). apply dexpr_level in H. rewrite level_ea in E by lia. discriminate.
  - apply dlval_level in H. rewrite level_ea in E by lia. discriminate.
  - destruct H; try (destruct H0 as [<-|[]]; try discriminate E; inversion E; subst).
    all: try (eapply head_vhead; eassumption).
    + right. match goal with X : exists lead rest, _ |- _ => destruct X as [lead [rest [X1 [X2 X3]]]] end.
      exists a, c, lead, rest. auto 12.
    + apply in_app_or in H0. destruct H0 as [H0|[<-|[]]].
      * match goal with X : dtrail _ cms _ |- _ => destruct X; try contradiction end. destruct H0 as [<-|[]]. discriminate.
      * inversion E; subst. eapply head_vhead; eauto.
  - repeat destruct H1 as [H1|H1]; inversion H1; subst; inversion E; subst; eapply head_vhead; eauto.
  - inversion E; subst; eapply head_vhead; eauto.
  - inversion E; subst; eapply head_vhead; eauto.
  - inversion E; subst; eapply head_vhead; eauto.
  - inversion E; subst; eapply head_vhead; eauto.
Qed.

Lemma spells_line_from bs b cells file a s rest c z : source_cells bs cells -> sfx a (open_source (mkSource bs b)) ->
  spells s a c -> spells rest c z -> at_end z -> line_from cells (new_pos file (getpos a)) (s ++ rest) (view z).
Proof.
  intros HC Ha H1 H2 H3. rewrite (proj1 (source_view _ b _) HC). split; [|apply at_end_line; auto].
  apply spells_text; auto. eapply Cursor.spells_app; eauto.
Qed.

Section Heads.
Context (bs : list N) (fails : bool) (file : list N) (opt : option parse_option) (root : node).
Context (HP : ParseFile (mkSource bs fails) file opt = Returned root).
Context (cells : list (cell * N * N)) (HC : source_cells bs cells).

Lemma node_head n e : within root n -> nea n = Some e ->
  match ae_cmd e with
  | Some x => exists lead w bang white opts rest, command_line cells (with_neovim opt) e x lead w bang white opts rest
  | None => exists lead rest, lead_line cells e lead rest
  end.
Proof.
  intros Hn He. destruct (file_parsed _ _ _ _ _ _ HP Hn) as [lp [fn [v [H1 H2]]]].
  destruct (new_ast_ea _ _ _ H2) as [E1 E2]. rewrite E2 in He. destruct (vea v) as [e'|] eqn:Ev; inversion He; subst.
  cbn [new_exarg ae_cmd]. destruct (derived_head _ _ _ _ _ _ H1 Ev) as [[a [b [d [c [x [Ha H]]]]]]|[a [c [lead [rest H]]]]].
  - rewrite (h_x _ _ _ _ _ _ _ H).
    destruct (h_text _ _ _ _ _ _ _ H) as [lead [w [bang [white [opts [rest [b1 [b2 [S1 [S2 [S3 [S4 [S5 [[z [S6 S7]] S8]]]]]]]]]]]]]].
    exists lead, w, bang, white, opts, rest.
    exists (new_pos file (getpos a)), (new_pos file (getpos b)), (new_pos file (getpos d)), (view z).
    cbn [new_exarg ae_linepos ae_cmdpos ae_argpos].
    rewrite (h_line _ _ _ _ _ _ _ H), (h_cmd _ _ _ _ _ _ _ H), (h_arg _ _ _ _ _ _ _ H). cbn [option_map].
    assert (T5 : spells (opts ++ rest) d z) by (eapply Cursor.spells_app; eauto).
    assert (T4 : spells (white ++ opts ++ rest) b2 z) by (eapply Cursor.spells_app; eauto).
    assert (T3 : spells (bang ++ white ++ opts ++ rest) b1 z) by (eapply Cursor.spells_app; eauto).
    assert (Hb : sfx b (open_source (mkSource bs fails))) by (eapply sfx_trans; [eapply spells_sfx; exact S1|auto]).
    assert (Hd : sfx d (open_source (mkSource bs fails))).
    { eapply sfx_trans; [eapply spells_sfx; exact S4|]. eapply sfx_trans; [eapply spells_sfx; exact S3|].
      eapply sfx_trans; [eapply spells_sfx; exact S2|auto]. }
    split; [auto|]. split. { eapply spells_line_from; eauto. eapply Cursor.spells_app; eauto. }
    split; [auto|]. split. { eapply spells_line_from; eauto. }
    split; [auto|]. split. { eapply spells_line_from; eauto. }
    exact S8.
  - destruct H as [H3 [H4 [H5 [H6 [H7 [H8 [H9 [H10 [H11 [[z [H12 H13]] H14]]]]]]]]]]. rewrite H9.
    exists lead, rest, (new_pos file (getpos a)), (new_pos file (getpos c)), (view z).
    cbn [new_exarg ae_linepos ae_cmdpos ae_argpos]. rewrite H6, H7, H8. cbn [option_map].
    split; [auto|]. split. { eapply spells_line_from; eauto. }
    split; [auto|]. split. { apply (spells_line_from bs fails cells file c [] rest c z); auto. eapply sfx_trans; [eapply spells_sfx; exact H11|auto]. reflexivity. }
    split; [auto|]. split; [exact H14|]. split; [exact H10|].
    destruct H5 as [H5|H5].
    + left. destruct rest as [|r rest]; auto. destruct c as [|[|y] p t]; cbn in H5, H12; try discriminate; contradiction.
    + right. destruct c as [|[|y] p t]; cbn in H5; try discriminate. inversion H5; subst y.
      destruct rest as [|r rest]. { cbn in H12. subst z. discriminate H13. }
      destruct H12 as [-> _]. exists rest. reflexivity.
Qed.
End Heads.

(** * The command a line stands for is determined by the line *)

Lemma word_first line w k : word_of line w k -> forall r t, line = r :: t -> 
  match w with x :: _ => x = r | [] => False end.
Proof.
  intros H r t ->. destruct H.
  - destruct H as [u H]. inversion H; auto.
  - inversion H; subst; auto.
  - destruct H0 as [u H0]. inversion H0; auto.
  - destruct H0 as [u [E [F G]]]. destruct H as [u' H]. destruct w as [|x w].
    + cbn in E. subst u. inversion H; subst. discriminate G.
    + inversion E; auto.
  - destruct H as [u [E [F G]]]. destruct w as [|x w]; cbn in E; [|inversion E; auto].
    destruct H0 as [_ [d [I1 I2]]]. cbn in I1.
    exfalso. destruct I2 as [I2|I2]; repeat destruct I1 as [<-|I1]; try discriminate I2; auto.
  - destruct H as [u [E [F G]]]. destruct w as [|x w]; [congruence|]. inversion E; auto.
Qed.

Lemma resolves_fun nv line w x w' x' : resolves nv line w x -> resolves nv line w' x' -> w = w' /\ x = x'.
Proof.
  intros [w1 k1 x1 A1 A2 A3|u1 w1 A1 A2 A3] [w2 k2 x2 B1 B2 B3|u2 w2 B1 B2 B3];
    destruct (word_of_fun _ _ _ _ _ A1 B1) as [E1 E2]; subst; try contradiction.
  - split; auto. eapply first_match_fun; eauto.
  - assert (w1 = w2) by (eapply longest_same; eauto). subst; auto.
Qed.

(** Two lines with the same text. *)
Lemma same_line_command nv line w x w' x' :
  resolves nv line w x \/ cut_name nv line w x -> resolves nv line w' x' \/ cut_name nv line w' x' ->
  x = x' \/ digit_in_name nv line.
Proof.
  intros [H|H] [H'|H'].
  - left. eapply resolves_fun; eauto.
  - right. destruct H' as [H1 [H2 [_ [r [rest [E D]]]]]]. exists w', r, rest. auto.
  - right. destruct H as [H1 [H2 [_ [r [rest [E D]]]]]]. exists w, r, rest. auto.
  - right. destruct H as [H1 [H2 [_ [r [rest [E D]]]]]]. exists w, r, rest. auto.
Qed.

(** * The option *)

Lemma first_match_option s x : (forall y, editor_specific y -> ~ abbreviates s y) ->
  first_match true s x <-> first_match false s x.
Proof.
  intros Hs. assert (Ha : Forall (fun y => ~ abbreviates s y) neovim_additional_commands).
  { apply Forall_forall. intros y Hy. apply Hs. left; auto. }
  assert (Hr : Forall (fun y => ~ abbreviates s y) neovim_removed_commands).
  { apply Forall_forall. intros y Hy. apply Hs. right; auto. }
  split; intros [[b [a [E1 [E2 E3]]]] E4].
  - split; [|discriminate]. unfold command_table in *. cbn [app].
    assert (G : forall l b, l ++ builtin_commands = b ++ x :: a -> Forall (fun y => ~ abbreviates s y) l ->
      Forall (fun y => ~ abbreviates s y) b -> exists b', builtin_commands = b' ++ x :: a /\ Forall (fun y => ~ abbreviates s y) b').
    { induction l as [|y l IH]; intros b0 G1 G2 G3. exists b0. auto. inversion G2; subst.
      destruct b0 as [|z b0]; cbn in G1; inversion G1; subst. contradiction.
      inversion G3; subst. eapply IH; eauto. }
    destruct (G _ _ E1 Ha E3) as [b' [G1 G2]]. exists b', a. auto.
  - split; [|auto]. exists (neovim_additional_commands ++ b), a. unfold command_table in *. cbn [app] in E1. rewrite E1, <- app_assoc.
    split; auto. split; auto. apply Forall_app; auto.
Qed.
Lemma user_word_option s : (forall y, editor_specific y -> ~ abbreviates s y) -> user_word true s <-> user_word false s.
Proof.
  intros Hs. pose proof (fun x => first_match_option s x Hs) as G. unfold user_word.
  split; intros [H1 H2]; (split; [auto|]); (destruct H2 as [H2|[x [H2 H3]]]; [left; intros x Hx; apply (H2 x), G; auto|right; exists x; split; [apply G|]; auto]).
Qed.
Lemma resolves_option line w key x : word_of line w key -> (forall y, editor_specific y -> ~ abbreviates key y) ->
  forall v, resolves true line v x <-> resolves false line v x.
Proof.
  intros Hw Hs v. pose proof (user_word_option _ Hs) as U. pose proof (fun z => first_match_option _ z Hs) as F.
  split; (intros [w1 k1 x1 A1 A2 A3|u1 w1 A1 A2 A3]; destruct (word_of_fun _ _ _ _ _ A1 Hw) as [E1 E2]; subst;
    [eapply co_table; [exact A1|apply F; auto|tauto]|eapply co_user; [exact A1|apply U; auto|auto]]).
Qed.

(** * The text of a line at a position *)

Lemma view_at B pre x n c post : view B = pre ++ (x, n, c) :: post ->
  exists d p t, sfx d B /\ d = Cons x p t /\ p_lnum p = n /\ p_col p = c /\ view t = post.
Proof.
  revert B; induction pre as [|y pre IH]; intros B H.
  - destruct B as [|z p t]; cbn in H; inversion H; subst. do 3 eexists. split; [constructor|]. auto.
  - destruct B as [|z p t]; cbn in H; inversion H; subst. destruct (IH _ H2) as [d [q [u [K1 K2]]]].
    exists d, q, u. split; auto. constructor; auto.
Qed.
Lemma view_place_unique B pre x n c post pre' x' post' : sorted B ->
  view B = pre ++ (x, n, c) :: post -> view B = pre' ++ (x', n, c) :: post' -> x = x' /\ post = post'.
Proof.
  intros Hs H1 H2. destruct (view_at _ _ _ _ _ _ H1) as [d [p [t [A1 [A2 [A3 [A4 A5]]]]]]].
  destruct (view_at _ _ _ _ _ _ H2) as [d' [p' [t' [B1 [B2 [B3 [B4 B5]]]]]]].
  assert (E : d = d').
  { destruct (sfx_total _ _ _ A1 B1) as [K|K].
    - destruct (Nat.eq_dec (clen d) (clen d')) as [L|L].
      + apply sfx_same in K; auto.
      + exfalso. pose proof (later _ _ _ Hs B1 K ltac:(pose proof (sfx_clen _ _ K); lia)) as G. rewrite A2, B2 in G. unfold pos_lt in G. cbn [getpos] in G. lia.
    - destruct (Nat.eq_dec (clen d) (clen d')) as [L|L].
      + symmetry. apply sfx_same in K; auto.
      + exfalso. pose proof (later _ _ _ Hs A1 K ltac:(pose proof (sfx_clen _ _ K); lia)) as G. rewrite A2, B2 in G. unfold pos_lt in G. cbn [getpos] in G. lia. }
  rewrite A2, B2 in E. inversion E; subst. auto.
Qed.
Lemma line_unique bs cells p s post s' post' : source_cells bs cells -> s <> [] -> s' <> [] ->
  line_from cells p s post -> line_from cells p s' post' -> s = s' /\ post = post'.
Proof.
  intros HC N1 N2 [[pre [mid [E [M S]]]] L] [[pre' [mid' [E' [M' S']]]] L'].
  destruct s as [|r s]; [congruence|]. destruct s' as [|r' s']; [congruence|].
  destruct mid as [|[[x n] c] mid]; [discriminate|]. destruct mid' as [|[[x' n'] c'] mid']; [discriminate|].
  cbn in S, S'. destruct S as [-> ->]. destruct S' as [-> ->].
  rewrite (proj1 (source_view _ false _) HC) in E, E'. set (B := open_source _) in *.
  assert (Hs : sorted B) by apply reader_sorted. cbn [app] in E, E'.
  destruct (view_place_unique _ _ _ _ _ _ _ _ _ Hs E E') as [-> Q]. clear - M M' Q L L'.
  cbn in M, M'. inversion M; inversion M'; subst. assert (r = r') by congruence. subst. 
  assert (G : s = s' /\ post = post'); [|destruct G; subst; auto].
  clear - H1 H3 Q L L'. revert s' mid mid' H1 H3 Q.
  assert (Q0 : forall (y : cell * N * N) t, line_end (y :: t) -> forall r, cell_of y <> R r).
  { intros y t H r K. cbn in H. congruence. }
  induction s as [|a s IH]; intros [|b s'] [|y mid] [|y' mid'] H1 H2 Q; try discriminate; cbn in H1, H2; cbn [app] in Q.
  - auto.
  - exfalso. inversion H2. rewrite Q in L. exact (Q0 _ _ L _ H0).
  - exfalso. inversion H1. rewrite <- Q in L'. exact (Q0 _ _ L' _ H0).
  - inversion Q; subst. inversion H1; inversion H2; subst. try (assert (a = b) by congruence; subst).
    assert (G : s = s' /\ post = post') by (eapply IH; eauto). destruct G; subst; auto.
Qed.

(** Commands with the same text. *)
Lemma found_nonempty nv line w x : resolves nv line w x \/ cut_name nv line w x -> line <> [].
Proof.
  assert (G : forall w k, word_of line w k -> line <> []).
  { intros v k H E. subst line. destruct H as [H|H|r I H|v H _|v r H _|v H N _ _ _ _].
    - destruct H as [u H]; discriminate.
    - inversion H.
    - destruct H as [u H]; discriminate.
    - destruct H as [u H]; discriminate.
    - destruct H as [u [H _]]. destruct v; discriminate.
    - destruct H as [u [H _]]. destruct v; [contradiction|discriminate]. }
  intros [[w1 k1 x1 A1 A2 A3|u1 w1 A1 A2 A3]|[H _]]; eapply G; eauto.
Qed.
Lemma other_option nv nv' line w x key w' : word_of line w' key -> (nv <> nv' -> forall y, editor_specific y -> ~ abbreviates key y) ->
  resolves nv line w x -> resolves nv' line w x.
Proof.
  intros H1 H2 H3. destruct (Bool.bool_dec nv nv') as [->|E]; auto. specialize (H2 E).
  destruct nv, nv'; try congruence; eapply resolves_option; eauto.
Qed.

Section Same.
Context (bs : list N) (fails : bool) (file : list N) (opt : option parse_option) (root : node).
Context (HP : ParseFile (mkSource bs fails) file opt = Returned root) (cells : list (cell * N * N)) (HC : source_cells bs cells).
Lemma node_line n e x cp s post : within root n -> nea n = Some e -> ae_cmd e = Some x ->
  ae_cmdpos e = Some cp -> line_from cells cp s post -> s <> [] ->
  exists lead w bang white opts rest, s = w ++ bang ++ white ++ opts ++ rest /\
    command_line cells (with_neovim opt) e x lead w bang white opts rest.
Proof.
  intros H1 H2 H3 H4 H5 Hs. pose proof (node_head _ _ _ _ _ HP _ HC _ _ H1 H2) as K. rewrite H3 in K.
  destruct K as [lead [w [bang [white [opts [rest K]]]]]]. exists lead, w, bang, white, opts, rest. split; auto.
  destruct K as [lp [cp' [ap [post' [K1 [K2 [K3 [K4 [K5 [K6 K7]]]]]]]]]]. rewrite H4 in K3. inversion K3; subst cp'.
  eapply line_unique; eauto. eapply found_nonempty. exact (ht_word _ _ _ _ _ _ _ _ _ K7).
Qed.
End Same.

Lemma same_command bs1 f1 file1 opt1 root1 cells1 n1 e1 x1 p1 q1 bs2 f2 file2 opt2 root2 cells2 n2 e2 x2 p2 q2 s :
  ParseFile (mkSource bs1 f1) file1 opt1 = Returned root1 -> source_cells bs1 cells1 ->
  within root1 n1 -> nea n1 = Some e1 -> ae_cmd e1 = Some x1 -> ae_cmdpos e1 = Some p1 -> line_from cells1 p1 s q1 ->
  ParseFile (mkSource bs2 f2) file2 opt2 = Returned root2 -> source_cells bs2 cells2 ->
  within root2 n2 -> nea n2 = Some e2 -> ae_cmd e2 = Some x2 -> ae_cmdpos e2 = Some p2 -> line_from cells2 p2 s q2 ->
  s <> [] ->
  (with_neovim opt1 <> with_neovim opt2 -> forall w key y, word_of s w key -> editor_specific y -> ~ abbreviates key y) ->
  x1 = x2 \/ digit_in_name (with_neovim opt1) s \/ digit_in_name (with_neovim opt2) s.
Proof.
  intros P1 C1 W1 N1 X1 L1 T1 P2 C2 W2 N2 X2 L2 T2 Hs Ho.
  destruct (node_line _ _ _ _ _ P1 _ C1 _ _ _ _ _ _ W1 N1 X1 L1 T1 Hs) as [a1 [a2 [a3 [a4 [a5 [a6 [E1 K1]]]]]]].
  destruct (node_line _ _ _ _ _ P2 _ C2 _ _ _ _ _ _ W2 N2 X2 L2 T2 Hs) as [b1 [b2 [b3 [b4 [b5 [b6 [E2 K2]]]]]]].
  destruct K1 as [? [? [? [? [_ [_ [_ [_ [_ [_ K1]]]]]]]]]]. destruct K2 as [? [? [? [? [_ [_ [_ [_ [_ [_ K2]]]]]]]]]].
  apply ht_word in K1. apply ht_word in K2. cbn zeta in K1, K2. rewrite <- E1 in K1. rewrite <- E2 in K2.
  assert (G : forall nv w x, cut_name nv s w x -> digit_in_name nv s).
  { intros nv w y [H1 [H2 [_ [r [rest [E D]]]]]]. exists w, r, rest. auto. }
  destruct K1 as [K1|K1]; [|right; left; eauto]. destruct K2 as [K2|K2]; [|right; right; eauto].
  left. assert (Hw : exists w key, word_of s w key) by (destruct K1; eauto). destruct Hw as [w [key Hw]].
  apply (other_option _ (with_neovim opt2) _ _ _ key w Hw) in K1.
  - eapply resolves_fun; eauto.
  - intros D y Hy. eapply Ho; eauto.
Qed.

(** * The text of an Excmd *)

Lemma derived_excmd neovim B lp fn p e s x : derived neovim B lp fn (VExcmd p e s) -> ea_cmd e = Some x ->
  exists a b d c z c', sfx a B /\ header neovim a b d c x e /\ extent (c_parser x) x (ea_usefilter e) c z c' /\
    sfx z c /\ s = getstr a z.
Proof.
  intros H Ex. inversion H; subst.
  - match goal with X : dexpr _ _ _ _ |- _ => pose proof (dexpr_low _ _ _ _ X) as L; apply dexpr_level in X; cbn in X; lia end.
  - match goal with X : dlval _ _ _ |- _ => apply dlval_level in X; cbn in X; lia end.
  - match goal with X : cmd_nodes _ _ _ _ _, Y : In _ _ |- _ => rename X into K; rename Y into I end.
    assert (G : forall P a b d c e z c', head neovim P a b d c e -> kept P e c z c' -> ea_cmd e = Some x -> sfx a B -> sfx z c ->
      exists a0 b0 d0 c0 z0 c'0, sfx a0 B /\ header neovim a0 b0 d0 c0 x e /\ extent (c_parser x) x (ea_usefilter e) c0 z0 c'0 /\
        sfx z0 c0 /\ getstr a z = getstr a0 z0).
    { intros P a0 b0 d0 c0 e0 z0 c1 [y [G2 G3]] [y' [G4 G5]] E1 Ha Hz.
      pose proof (h_x _ _ _ _ _ _ _ G2) as E2. assert (y = x) by congruence. assert (y' = x) by congruence. subst y y' P.
      exists a0, b0, d0, c0, z0, c1. auto. }
    inversion K; subst; try (destruct I as [I|[]]; try discriminate I; inversion I; subst); try (eapply G; eassumption).
    + congruence.
    + apply in_app_or in I. destruct I as [I|[I|[]]]; try discriminate I.
      match goal with X : dtrail _ _ _ |- _ => destruct X; try contradiction end. destruct I as [I|[]]; discriminate I.
  - repeat match goal with X : In _ _ |- _ => destruct X as [X|X]; [inversion X; subst; discriminate|] end; contradiction.
Qed.

Lemma spells_getline s a b : spells s a b -> getstr a b = s.
Proof. apply spells_getstr. Qed.
Lemma spells_unique s s' a z z' : spells s a z -> at_end z -> spells s' a z' -> at_end z' -> s = s' /\ z = z'.
Proof.
  revert s' a; induction s as [|r s IH]; intros [|r' s'] a; cbn [spells]; intros H1 H2 H3 H4; subst; auto.
  - destruct z as [|[|y] p t]; try contradiction. discriminate H2.
  - destruct z' as [|[|y] p t]; try contradiction. discriminate H4.
  - destruct a as [|[|y] p t]; try contradiction. destruct H1 as [-> H1], H3 as [-> H3].
    destruct (IH _ _ H1 H2 H3 H4) as [-> ->]. auto.
Qed.
Lemma lines_taken_below m y z c' : lines_taken m y z c' -> exists ls, lines_below m (view y) ls /\
  sfx z y /\ getstr y z = concat (map (fun s => 10 :: s) ls).
Proof.
  induction 1.
  - exists []. destruct t; try discriminate. cbn [view]. split. apply lb_end; reflexivity. split. constructor.
    apply getstr_same.
  - exists [s]. destruct (spells_view _ _ _ H1) as [mid [E1 E2]]. cbn [view]. rewrite E1. split.
    apply lb_marker; auto. { rewrite <- E1. destruct t; discriminate. } apply at_end_line; auto.
    split. { constructor. eapply spells_sfx; eauto. }
    rewrite getstr_eol by (eapply spells_sfx; eauto). rewrite (spells_getstr _ _ _ H1). cbn. rewrite app_nil_r. auto.
  - destruct IHlines_taken as [ls [I1 [I2 I3]]]. exists (s :: ls).
    destruct (spells_view _ _ _ H0) as [mid [E1 E2]]. pose proof (spells_sfx _ _ _ H0) as S1.
    cbn [view] in *. rewrite E1. split. apply lb_line; auto. split. { constructor. eapply sfx_trans; eauto. }
    rewrite getstr_eol by (eapply sfx_trans; eauto). rewrite (getstr_app _ _ _ S1 I2), (spells_getstr _ _ _ H0), I3.
    reflexivity.
Qed.

Section Kept.
Context (bs : list N) (fails : bool) (file : list N) (opt : option parse_option) (root : node).
Context (HP : ParseFile (mkSource bs fails) file opt = Returned root).
Context (cells : list (cell * N * N)) (HC : source_cells bs cells).

Lemma node_text p s e x : within root (NExcmd p s e) -> ae_cmd e = Some x ->
  exists lead w bang white opts rest lp post,
    command_line cells (with_neovim opt) e x lead w bang white opts rest /\
    ae_linepos e = Some lp /\ line_from cells lp (lead ++ w ++ bang ++ white ++ opts ++ rest) post /\
    ((exists t, kept_text expression_text x (ae_usefilter e) rest t /\ s = lead ++ w ++ bang ++ white ++ opts ++ t) \/
     (exists m ls, takes_lines x rest m /\ lines_below m post ls /\
        s = (lead ++ w ++ bang ++ white ++ opts ++ rest) ++ concat (map (fun s => 10 :: s) ls))).
Proof.
  intros Hn He. destruct (file_parsed _ _ _ _ _ _ HP Hn) as [lp0 [fn [v [H1 H2]]]].
  assert (exists p' e', v = VExcmd p' e' s /\ e = new_exarg file e') as [p' [e' [-> ->]]].
  { destruct v; cbn [new_ast] in H2;
    try match type of H2 with (match ?x with _ => _ end) = _ => destruct x eqn:?; try discriminate end;
    unbind H2; inversion H2; subst; eauto. }
  cbn [new_exarg ae_cmd] in He. destruct (derived_excmd _ _ _ _ _ _ _ _ H1 He) as [a [b [d [c [z [c' [Ha [H [K [Hz ->]]]]]]]]]].
  destruct (h_text _ _ _ _ _ _ _ H) as [lead [w [bang [white [opts [rest [b1 [b2 [S1 [S2 [S3 [S4 [S5 [[y [S6 S7]] S8]]]]]]]]]]]]]].
  exists lead, w, bang, white, opts, rest, (new_pos file (getpos a)), (view y).
  assert (T5 : spells (opts ++ rest) d y) by (eapply Cursor.spells_app; eauto).
  assert (T4 : spells (white ++ opts ++ rest) b2 y) by (eapply Cursor.spells_app; eauto).
  assert (T3 : spells (bang ++ white ++ opts ++ rest) b1 y) by (eapply Cursor.spells_app; eauto).
  assert (T2 : spells (w ++ bang ++ white ++ opts ++ rest) b y) by (eapply Cursor.spells_app; eauto).
  assert (Hb : sfx b (open_source (mkSource bs fails))) by (eapply sfx_trans; [eapply spells_sfx; exact S1|auto]).
  assert (Hd : sfx d (open_source (mkSource bs fails))).
  { eapply sfx_trans; [eapply spells_sfx; exact S4|]. eapply sfx_trans; [eapply spells_sfx; exact S3|].
    eapply sfx_trans; [eapply spells_sfx; exact S2|auto]. }
  assert (LF : line_from cells (new_pos file (getpos a)) (lead ++ w ++ bang ++ white ++ opts ++ rest) (view y))
    by (eapply spells_line_from; eauto).
  split. { exists (new_pos file (getpos a)), (new_pos file (getpos b)), (new_pos file (getpos d)), (view y).
    cbn [new_exarg ae_linepos ae_cmdpos ae_argpos].
    rewrite (h_line _ _ _ _ _ _ _ H), (h_cmd _ _ _ _ _ _ _ H), (h_arg _ _ _ _ _ _ _ H). cbn [option_map].
    split; [auto|]. split; [auto|].
    split; [auto|]. split. { eapply spells_line_from; eauto. }
    split; [auto|]. split. { eapply spells_line_from; eauto. }
    exact S8. }
  split. { cbn [new_exarg ae_linepos]. rewrite (h_line _ _ _ _ _ _ _ H). reflexivity. }
  split; auto. cbn [new_exarg ae_usefilter].
  assert (HD : spells (lead ++ w ++ bang ++ white ++ opts) a c).
  { do 4 (eapply Cursor.spells_app; [eassumption|]). auto. }
  assert (Hc : sfx c a) by (eapply spells_sfx; exact HD).
  rewrite (getstr_app _ _ _ Hc Hz), (spells_getstr _ _ _ HD).
  assert (One : forall s t u z1 z2, spells s c z -> spells t z z1 -> spells u z1 z2 -> at_end z2 ->
    rest = s ++ t ++ u /\ getstr c z = s).
  { intros s0 t u z1 z2 A1 A2 A3 A4. split; [|apply spells_getstr; auto].
    refine (proj1 (spells_unique rest _ c y z2 S6 S7 _ A4)). eapply Cursor.spells_app; eauto. eapply Cursor.spells_app; eauto. }
  assert (Many : forall s y0 m, spells s c y0 -> lines_taken m y0 z c' -> takes_lines x s m ->
    exists m ls, takes_lines x rest m /\ lines_below m (view y) ls /\
      (lead ++ w ++ bang ++ white ++ opts) ++ getstr c z = (lead ++ w ++ bang ++ white ++ opts ++ rest) ++ concat (map (fun s => 10 :: s) ls)).
  { intros s0 y0 m A1 A2 A3. destruct (lines_taken_below _ _ _ _ A2) as [ls [B1 [B2 B3]]].
    assert (at_end y0) by (destruct A2; reflexivity).
    destruct (spells_unique rest s0 c y y0 S6 S7 A1 H0) as [-> ->]. exists m, ls. split; auto. split; auto.
    rewrite (getstr_app c y0 z (spells_sfx _ _ _ A1) B2), (spells_getstr _ _ _ A1), B3, <- !app_assoc. auto. }
  remember (c_parser x) as P eqn:EP. destruct K.
  - left. match goal with X : rest_of _ _ |- _ => destruct X as [y' [R1 R2]] end. destruct (One s w0 rest0 c' y') as [-> E]; auto.
    exists s. rewrite E, <- !app_assoc. split; auto. apply kt_bar; auto. rewrite <- EP. unfold bar_parsers.
    destruct H0 as [P c I|P c d0 I _ _| | | |]; subst; cbn [In] in *; tauto.
  - right. match goal with X : spells _ _ ?y0, Y : lines_taken _ ?y0 _ _ |- _ => apply (Many _ _ _ X Y) end. apply tl_append. rewrite <- EP; auto.
  - right. match goal with X : spells _ _ ?y0, Y : lines_taken _ ?y0 _ _ |- _ => apply (Many _ _ _ X Y) end. apply tl_keymap. congruence.
  - right. match goal with X : spells _ _ ?y0, Y : lines_taken _ ?y0 _ _ |- _ => apply (Many _ _ _ X Y) end. apply tl_script; auto. rewrite <- EP; auto.
  - left. destruct (One s [] [] z z) as [E1 E2]; auto; try reflexivity. rewrite app_nil_r in E1. cbn [app] in E1.
    exists s. rewrite E1, E2, <- !app_assoc. split; auto. apply kt_script; auto. rewrite <- EP; auto.
  - left. match goal with X : rest_of _ _ |- _ => destruct X as [y' [R1 R2]] end. destruct (One s w0 rest0 c' y') as [-> E]; auto.
    exists s. rewrite E, <- !app_assoc. split; auto. apply kt_wincmd; auto. congruence.
  - left. match goal with X : rest_of _ _ |- _ => destruct X as [y' [R1 R2]] end. destruct (One s [] rest0 z y') as [-> E]; auto. reflexivity.
    exists s. rewrite E, <- !app_assoc. split; auto. apply kt_syntax; auto. congruence.
Qed.
End Kept.
