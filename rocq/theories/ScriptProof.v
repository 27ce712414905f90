(** Written scripts are parsed back to their statements, from the bytes of the source to
    the exported tree. *)
From Coq Require Import Lia ZifyBool ZifyNat ZifyN.
From Verif Require Import Base Utf8 CharClass Reader Vnode Token Ast Tokenizer ExprParser CmdTable CmdParser Export Api
  Cursor Grammar ExprSafe Script Head HeadProof Extent CmdSpec CmdBase CmdArgs CmdLoop ApiExpr ApiFile Places PlacesProof LinesProof Join JoinProof Written WrittenProof Lookahead WrittenBrace PrintBack Rest RestProof WrittenScript
  ArgsProof StmtShow FindBack HeadBack LineProof ExtentBack BlockProof.

(** * The cells of the reader *)

Lemma lay_flat js : forall i, exists p, lay (lines_text js) (flat js i) (Eof p).
Proof.
  induction js as [|t js IH]; intros i.
  - exists (mkPos i 0 0 0). reflexivity.
  - destruct (IH (i + N.of_nat (length t) + 1)) as [p H]. exists p.
    unfold lines_text in *. cbn [map concat flat]. rewrite <- app_assoc. cbn [app].
    clear IH. revert i H. induction t as [|r t IHt]; intros i H; cbn [chars map app cells lay length] in *.
    + split; auto. rewrite N.add_0_r in H. exact H.
    + split; auto. apply IHt. replace (i + 1 + N.of_nat (length t) + 1) with (i + N.of_nat (S (length t)) + 1) by lia. exact H.
Qed.
Lemma lay_strip l : forall c k', lay l (strip c) k' -> exists k, lay l c k /\ strip k = k'.
Proof.
  induction l as [|x l IH]; intros c k' H; cbn [lay] in *; [exists c; auto|].
  destruct c as [p|y p t]; cbn [strip] in H; [contradiction|]. destruct H as [-> H]. destruct (IH _ _ H) as [k [A B]].
  exists k. auto.
Qed.
Lemma lay_reader ts js : unbroken ts js -> exists p, lay (lines_text js) (new_reader ts) (Eof p).
Proof.
  intros U. destruct (lay_flat js 0) as [p H]. rewrite <- (strip_reader _ _ U) in H.
  destruct (lay_strip _ _ _ H) as [k [A B]]. destruct k as [q|]; [|discriminate B]. exists q. exact A.
Qed.

(** * The whole parse *)

Lemma run_end nv c k vs ch : wf c -> is_eof k = true ->
  steps nv (mkSt c [mkFrame FTop (getpos c) ea0 []] []) (mkSt k [mkFrame FTop (getpos c) ea0 vs] ch) ->
  vim_parse nv c = Ok (VToplevel (getpos c) vs).
Proof.
  intros W Hk S. pose proof (vim_parse_safe nv c W) as V. unfold vim_parse in *.
  destruct (steps_loop _ _ _ S (Datatypes.S (clen c))) as [m' [E|E]]; rewrite E in *; [contradiction|].
  destruct m' as [|m']; [contradiction|]. cbn [cmds_loop cur]. rewrite Hk. reflexivity.
Qed.
Lemma trail_eof k fr ch : is_eof k = true -> exists k', parse_trail (mkSt k fr ch) = Ok (mkSt k' fr ch) /\ is_eof k' = true.
Proof. destruct k; [|discriminate]. intros _. eexists. split; reflexivity. Qed.
Lemma seek_eof c : is_eof (seek_end0 c) = true.
Proof. induction c; cbn [seek_end0]; auto. Qed.

Lemma parse_written nv ns js c p : wf c -> lay (lines_text js) c (Eof p) -> written_script nv ns js ->
  exists q vs, vim_parse nv c = Ok (VToplevel q vs) /\ Forall2 shows_s vs ns.
Proof.
  intros W L H. set (f0 := mkFrame FTop (getpos c) ea0 []).
  assert (A : allows top_place [f0]) by (split; [|split]; discriminate).
  destruct H as [ns js H|ns s l a x tl nm bang white opts kept z v q js H Hl Hx Hp HP [Hh [Hhash [Hkept Hli]]] E|ns s l a x tl nm bang white opts rest m below q js H Hl Hx Hp Hh Hhash Htk Hin E].
  - destruct (proj1 (proj2 (blocks_all nv)) _ _ _ H c (Eof p) f0 [] [] L W eq_refl (Forall_nil _) A) as [vs [ch' [S [F _]]]].
    exists (getpos c), vs. split; [|exact F]. eapply run_end; [exact W| |exact S]. reflexivity.
  - rewrite E in L. apply lay_app in L. destruct L as [m [L1 L2]].
    destruct (lay_line _ _ _ _ L2) as [p1 [t [Sp _]]].
    assert (Rm : rest_of m (l ++ tl ++ nm ++ bang ++ white ++ opts ++ kept ++ z)) by (exists (Cons EOL p1 t); split; [auto|reflexivity]).
    assert (Nm : nobar m) by (eapply rest_nobar; [exact Rm|]; apply lead_starts; auto; eapply head_first; eauto).
    destruct (proj1 (proj2 (blocks_all nv)) _ _ _ H c m f0 [] [] L1 W Nm (Forall_nil _) A) as [vs [ch' [S [F Ch]]]].
    destruct (head_line_back nv x a l tl nm bang white opts (kept ++ z) m [add_all vs f0] ch' Hl Hh Hhash Hx Hp Rm (lay_wf _ _ _ L1 W) Ch)
      as [a1 [b [d [k0 [e [ch1 [S1 [S2 [R1 [W1 [E1 [Sh [Ef [Er [C1 P1]]]]]]]]]]]]]]].
    rewrite <- Ef in Hkept.
    destruct (finish_back x e a1 b d k0 _ (add_all vs f0) [] ch1 S2 W1 Er kept z HP eq_refl Hkept R1) as [c1 Ed]. rewrite Ed in P1. cbn [bind] in P1.
    match type of P1 with _ = parse_trail (mkSt ?k ?fr ?ch) => destruct (trail_eof k fr ch (seek_eof _)) as [k' [Et Ek]] end. rewrite Et in P1.
    exists (getpos c), (vs ++ [VExcmd (getpos b) e ((tl ++ nm ++ bang ++ white ++ opts) ++ kept)]). split.
    + eapply run_end; [exact W|exact Ek|]. eapply steps_trans; [exact S|]. eapply st_one; [exact E1|exact P1|]. apply st_none.
    + apply Forall2_app; auto. rewrite <- !app_assoc. constructor; [apply ss_excmd; auto|constructor].
  - rewrite E in L. apply lay_app in L. destruct L as [k [L1 L2]]. rewrite <- (app_nil_r (lines_text _)) in L2.
    destruct (lay_text_line _ _ _ _ _ L2) as [p1 [t [Sl [Lt Rm]]]]. rewrite app_nil_r in Lt.
    assert (Nm : nobar k) by (eapply rest_nobar; [exact Rm|]; apply lead_starts; auto; eapply head_first; eauto).
    destruct (proj1 (proj2 (blocks_all nv)) _ _ _ H c k f0 [] [] L1 W Nm (Forall_nil _) A) as [vs [ch' [S [F Ch]]]].
    destruct (head_line_back nv x a l tl nm bang white opts rest k [add_all vs f0] ch' Hl Hh Hhash Hx Hp Rm (lay_wf _ _ _ L1 W) Ch)
      as [a1 [b [d [k0 [e [ch1 [S1 [S2 [R1 [W1 [E1 [Sh [Ef [Er [C1 P1]]]]]]]]]]]]]]].
    assert (S3 : spells rest k0 (Cons EOL p1 t)).
    { replace (l ++ tl ++ nm ++ bang ++ white ++ opts ++ rest) with ((l ++ tl ++ nm ++ bang ++ white ++ opts) ++ rest) in Sl by (rewrite <- !app_assoc; reflexivity).
      apply spells_split in Sl. destruct Sl as [m0 [Sa Sb]]. rewrite (spells_fun _ _ _ _ S1 Sa). exact Sb. }
    rewrite (lines_back x e a1 b d k0 _ (add_all vs f0) [] ch1 S2 rest m p1 t Htk R1 S3) in P1.
    assert (Em : match m with Some m' => until_marker (Datatypes.S (clen t)) m' t | None => read_all_lines (Datatypes.S (clen t)) t end = Ok (below, Eof p)).
    { destruct m as [m|]; [apply until_end; auto|apply all_lines_end; auto]. }
    rewrite Em in P1. cbn [bind] in P1.
    match type of P1 with _ = parse_trail (mkSt ?k ?fr ?ch) => destruct (trail_eof k fr ch eq_refl) as [k' [Et Ek]] end. rewrite Et in P1.
    exists (getpos c), (vs ++ [VExcmd (getpos b) e (joined ((tl ++ nm ++ bang ++ white ++ opts) ++ rest) below)]). split.
    + eapply run_end; [exact W|exact Ek|]. eapply steps_trans; [exact S|]. eapply st_one; [exact E1|exact P1|]. apply st_none.
    + apply Forall2_app; auto. rewrite <- !app_assoc. constructor; [apply ss_excmd; auto|constructor].
Qed.

(** A tree exported for another file name is the same up to positions. *)
Lemma new_ast_file file v : omap unplaced (new_ast file v) = omap unplaced (new_ast [] v).
Proof.
  assert (H : forall f p, new_pos [] (flatp (mkPos 0 0 0 0)) = nowhere (new_pos f p)) by (intros; reflexivity).
  pose proof (new_ast_map file [] (fun _ => flatp (mkPos 0 0 0 0)) nowhere (H file) v) as M.
  pose proof (new_ast_map [] [] (fun _ => flatp (mkPos 0 0 0 0)) nowhere (H []) v) as M'.
  unfold commutes in *. rewrite M in M'. exact M'.
Qed.

Lemma script_written bs b ts js ns file opt : seen_lines bs ts -> unbroken ts js -> written_script (neovim_of opt) ns js ->
  exists p body, ParseFile (mkSource bs b) file opt = Returned (NFile p body) /\ map unplaced body = map unplaced ns.
Proof.
  intros L U H. destruct (lay_reader _ _ U) as [p K].
  pose proof (open_source_wf (mkSource bs b)) as W. pose proof (ParseFile_cases (mkSource bs b) file opt) as Q.
  rewrite (seen_open _ _ _ L) in *.
  destruct (parse_written _ _ _ _ _ W K H) as [q [vs [E F]]].
  unfold ParseFile, parse_to_ast in *. fold (neovim_of opt) in *. rewrite (seen_open _ _ _ L) in *. rewrite E in *. cbn [bind] in *.
  apply casts_ok in F. destruct F as [ns' [A B]].
  pose proof (new_ast_file file (VToplevel q vs)) as M. cbn [new_ast] in M. cbn [new_ast].
  rewrite A in M. cbn [bind omap] in M.
  match type of M with omap _ ?x = _ => destruct x as [n| | |] eqn:N end; try discriminate M. cbn [omap] in M.
  injection M as M. destruct n; try discriminate M. cbn [recovered]. do 2 eexists. split; [reflexivity|].
  rewrite <- B. unfold unplaced in M. cbn [map_node] in M. injection M as M. exact M.
Qed.

(** The text of a script determines its statements. *)
Lemma flat_wf js : forall i, wf (flat js i).
Proof.
  assert (N : forall t i k, (forall i', p_i (getpos (k i')) = i') -> p_i (getpos (cells t i k)) = i).
  { intros [|r t] i k H; cbn [cells getpos p_i]; auto. }
  assert (M : forall js i, p_i (getpos (flat js i)) = i).
  { intros [|t js'] i; cbn [flat]; [reflexivity|]. apply N. reflexivity. }
  assert (G : forall t i k, (forall i', exists d, k i' = Cons EOL (mkPos i' 0 0 0) d /\ wf (k i')) -> wf (cells t i k)).
  { induction t as [|r t IHt]; intros i k H; cbn [cells wf].
    - destruct (H i) as [d [_ D]]. exact D.
    - pose proof (IHt (i + 1) k H) as Q. split.
      + rewrite N; [reflexivity|]. intros i'. destruct (H i') as [d [-> _]]. reflexivity.
      + destruct t as [|r' t]; cbn [cells] in *; [|exact Q].
        destruct (H (i + 1)) as [d [E D]]. rewrite E in *. exact Q. }
  induction js as [|t js IH]; intros i; cbn [flat]; [exact I|]. apply G. intros i'. eexists. split; [reflexivity|].
  cbn [wf]. split; [apply M|]. pose proof (IH (i' + 1)) as Q. destruct (flat js (i' + 1)); auto.
Qed.
Lemma shows_unique vs : forall ns ns', Forall2 shows_s vs ns -> Forall2 shows_s vs ns' -> map unplaced ns = map unplaced ns'.
Proof.
  induction vs as [|v vs IH]; intros ns ns' H H'; inversion H as [|? n ? l A B]; inversion H' as [|? n' ? l' A' B']; subst; [reflexivity|].
  destruct A as [m [E [_ U]]], A' as [m' [E' [_ U']]]. rewrite E in E'. injection E' as <-. cbn [map]. rewrite (IH _ _ B B'), <- U, <- U'.
  reflexivity.
Qed.
Lemma script_unique nv ns ns' js : written_script nv ns js -> written_script nv ns' js -> map unplaced ns = map unplaced ns'.
Proof.
  intros H H'. destruct (lay_flat js 0) as [p L].
  destruct (parse_written _ _ _ _ _ (flat_wf _ _) L H) as [q [vs [E F]]].
  destruct (parse_written _ _ _ _ _ (flat_wf _ _) L H') as [q' [vs' [E' F']]].
  rewrite E in E'. injection E' as _ <-. exact (shows_unique _ _ _ F F').
Qed.

(** * An expression at the start of a line *)

Theorem rest_source bs fails w1 s w2 z ts js n :
  seen_lines bs ts -> unbroken ts ((w1 ++ s ++ w2 ++ z) :: js) -> gap w1 -> gap w2 ->
  written (nothing (w2 ++ z)) 1 n s -> follows n w2 z -> no_operator w2 z ->
  exists n', ParseExpr (mkSource bs fails) = Returned (Some n') /\ unplaced n' = unplaced n.
Proof.
  intros Hs U Hw1 Hw2 Hw Hf Hz. destruct (lay_reader _ _ U) as [e L]. rewrite <- (seen_open _ _ fails Hs) in L.
  pose proof (open_source_wf (mkSource bs fails)) as Wf. set (c := open_source (mkSource bs fails)) in *.
  unfold lines_text in L. cbn [map concat] in L. rewrite <- app_assoc in L. apply lay_line in L. destruct L as [p [t [Sp _]]].
  rewrite app_assoc in Sp. apply spells_split in Sp. destruct Sp as [k [Sp1 Sp2]]. pose proof (spells_wf _ _ _ Sp1 Wf) as Wk.
  destruct (reads1 _ _ _ (proj1 written_reads _ _ _ _ Hw) (S (clen c)) w1 c k Hw1 Sp1 Wf (le_n _)) as [v [Hv [n' [N1 [N2 N3]]]]].
  { eapply rest_stop; eauto. reflexivity. }
  exists n'. split; auto. unfold ParseExpr, parse_expr_to_ast. fold c. unfold parse_expr. rewrite Hv. cbn [bind].
  rewrite N1. cbn [bind recovered]. unfold to_expr. rewrite N2. reflexivity.
Qed.
