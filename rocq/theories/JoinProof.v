(** Proofs about trees up to positions, joined lines and the text after :finish. *)
From Coq Require Import Lia ZifyBool ZifyNat ZifyN.
From Verif Require Import Base Utf8 CharClass Reader Vnode Token Ast Tokenizer ExprParser CmdTable CmdParser Export Api
  Cursor Sim SimCmd SimArgs SimRun SimLoop Places PlacesProof LinesProof ApiExpr ApiFile ScriptExport Grammar ExprSafe Script Derived CmdBase CmdLoop NodeFacts NodeText Ast Join.

(** * Induction over trees *)

Definition vo (o : option vnode) : list vnode := match o with Some v => [v] | None => [] end.
Definition vsub (v : vnode) : list vnode :=
  match v with
  | VTernary _ a b c => [a; b; c]
  | VBin _ _ a b | VSubscript _ a b | VDot _ a b => [a; b]
  | VMethod _ a b => a :: b :: match b with VCall _ f l => f :: l | _ => [] end
  | VUn _ _ a | VCurlyExpr _ a | VParen _ a | VDelfunction _ _ a | VExcall _ _ a | VThrow _ _ a | VEval _ _ a => [a]
  | VSlice _ a b c => a :: vo b ++ vo c
  | VCall _ a l => a :: l
  | VList _ l | VCurlyName _ l | VToplevel _ l | VUnlet _ _ l | VLockvar _ _ _ l | VUnlockvar _ _ _ l
  | VElse _ _ l | VCatch _ _ l _ | VFinally _ _ l | VEcho _ _ _ l | VExecute _ _ l => l
  | VDict _ l => map fst l ++ map snd l
  | VLambda _ l a => l ++ [a]
  | VHeredoc _ l _ b => l ++ b
  | VFunction _ _ b l rl da _ en => b ++ l :: rl ++ da ++ vo en
  | VReturn _ _ a => vo a
  | VLet _ _ _ l ls r v | VConst _ _ _ l ls r v => vo l ++ ls ++ vo r ++ vo v
  | VIf _ _ b c es el en => b ++ c :: es ++ vo el ++ vo en
  | VElseif _ _ b c => b ++ [c]
  | VWhile _ _ b c en => b ++ c :: vo en
  | VFor _ _ b l ls rs r en => b ++ vo l ++ ls ++ vo rs ++ r :: vo en
  | VTry _ _ b cs fi en => b ++ cs ++ vo fi ++ vo en
  | VLit _ _ _ | VIdent _ _ | VCurlyPart _ _ | VComment _ _ | VExcmd _ _ _ | VEndfunction _ _ | VEndif _ _
  | VEndwhile _ _ | VEndfor _ _ | VContinue _ _ | VBreak _ _ | VEndtry _ _ | VEchohl _ _ _ => []
  end.
Lemma vnode_nest (P : vnode -> Prop) : (forall v, Forall P (vsub v) -> P v) -> forall v, P v.
Proof.
  intros H. fix IH 1. intros v. apply H. destruct v; cbn [vsub]; repeat first
    [ apply Forall_app; split | apply Forall_nil | apply Forall_cons; [apply IH|]
    | match goal with
      | |- Forall _ (match ?b with _ => _ end) => destruct b
      | |- Forall _ (vo ?o) => destruct o; [constructor; [apply IH|constructor]|constructor]
      | |- Forall _ (map fst ?l) => induction l as [|[k w] l0 IHl]; constructor; [apply IH|exact IHl]
      | |- Forall _ (map snd ?l) => induction l as [|[k w] l0 IHl]; constructor; [apply IH|exact IHl]
      | |- Forall _ ?l => induction l as [|x l0 IHl]; constructor; [apply IH|exact IHl]
      end ].
Qed.

(** * The exported tree under a change of positions *)

Definition omap {A B} (g : A -> B) (o : outcome A) : outcome B :=
  match o with Ok a => Ok (g a) | PErr e => PErr e | Panic k => Panic k | OutOfFuel => OutOfFuel end.
Lemma bind_map {A A' B B'} (g : A -> A') (G : B -> B') m' m k' k :
  m' = omap g m -> (forall a, k' (g a) = omap G (k a)) -> bind m' k' = omap G (bind m k).
Proof. intros -> H. destruct m; cbn; auto. Qed.
Lemma mapM_map {A A' B B'} (m : A -> A') (g : B -> B') (f : A -> outcome B) (f' : A' -> outcome B') l :
  Forall (fun x => f' (m x) = omap g (f x)) l -> mapM f' (map m l) = omap (map g) (mapM f l).
Proof.
  induction 1 as [|x l Hx _ IH]; cbn [mapM map]; [reflexivity|]. rewrite Hx. destruct (f x); cbn; auto. rewrite IH.
  destruct (mapM f l); cbn; auto.
Qed.

Section Export.
Context (file file' : list N) (h : pos -> pos) (g : apos -> apos) (Hg : forall p, new_pos file' (h p) = g (new_pos file p)).
Local Notation G := (map_node g).
Definition commutes (v : vnode) : Prop := new_ast file' (map_pos h v) = omap G (new_ast file v).
Lemma is_expr_map n : is_expr (G n) = is_expr n. Proof. destruct n; reflexivity. Qed.
Lemma is_stmt_map n : is_stmt (G n) = is_stmt n. Proof. destruct n; reflexivity. Qed.
Lemma exarg_map e : new_exarg file' (map_ea h e) = map_exarg g (new_exarg file e).
Proof.
  unfold new_exarg, map_exarg, map_ea. cbn. f_equal;
    match goal with |- option_map _ (option_map _ ?o) = _ => destruct o; cbn; auto; rewrite Hg; reflexivity end.
Qed.
Lemma ex_map x : commutes x ->
  (let* y := new_ast file' (map_pos h x) in Ok (to_expr y)) = omap (option_map G) (let* y := new_ast file x in Ok (to_expr y)).
Proof. intros ->. destruct (new_ast file x) as [n| | |]; cbn; auto. unfold to_expr. rewrite is_expr_map. destruct (is_expr n); auto. Qed.
Lemma oex_map o : Forall commutes (vo o) ->
  match option_map (map_pos h) o with None => Ok None | Some x => let* y := new_ast file' x in Ok (to_expr y) end =
  omap (option_map G) match o with None => Ok None | Some x => let* y := new_ast file x in Ok (to_expr y) end.
Proof. destruct o as [x|]; cbn [option_map vo]; [|reflexivity]. intros F. inversion F; subst. apply ex_map; auto. Qed.
Lemma cast_map f x : (forall n, f (G n) = f n) -> commutes x ->
  (let* y := new_ast file' (map_pos h x) in assert_node f y) = omap G (let* y := new_ast file x in assert_node f y).
Proof. intros Hf ->. destruct (new_ast file x) as [n| | |]; cbn; auto. unfold assert_node. rewrite Hf. destruct (f n); auto. Qed.
Lemma exs_map x : commutes x ->
  (let* y := new_ast file' (map_pos h x) in expr_elem y) = omap G (let* y := new_ast file x in expr_elem y).
Proof. intros ->. destruct (new_ast file x) as [n| | |]; cbn; auto. unfold expr_elem. rewrite is_expr_map. destruct (is_expr n); auto. Qed.
Lemma ocast_map f o : (forall n, f (G n) = f n) -> Forall commutes (vo o) ->
  match option_map (map_pos h) o with None => Panic PType | Some x => let* y := (let* y := new_ast file' x in assert_node f y) in Ok (Some y) end =
  omap (option_map G) match o with None => Panic PType | Some x => let* y := (let* y := new_ast file x in assert_node f y) in Ok (Some y) end.
Proof.
  intros Hf. destruct o as [x|]; cbn [option_map vo]; [|reflexivity]. intros F. inversion F; subst.
  eapply bind_map; [apply cast_map; eauto|]. reflexivity.
Qed.
Lemma optM_map f o : (forall n, f (G n) = f n) -> Forall commutes (vo o) ->
  optM (fun x => let* y := new_ast file' x in assert_node f y) (option_map (map_pos h) o) =
  omap (option_map G) (optM (fun x => let* y := new_ast file x in assert_node f y) o).
Proof.
  intros Hf. destruct o as [x|]; cbn [option_map vo optM]; [|reflexivity]. intros F. inversion F; subst.
  eapply bind_map; [apply cast_map; eauto|]. reflexivity.
Qed.
Lemma casts_map f l : (forall n, f (G n) = f n) -> Forall commutes l ->
  mapM (fun x => let* y := new_ast file' x in assert_node f y) (map (map_pos h) l) =
  omap (map G) (mapM (fun x => let* y := new_ast file x in assert_node f y) l).
Proof. intros Hf H. apply mapM_map. eapply Forall_impl; [|exact H]. intros x Hx. apply cast_map; auto. Qed.
Lemma exss_map l : Forall commutes l ->
  mapM (fun x => let* y := new_ast file' x in expr_elem y) (map (map_pos h) l) =
  omap (map G) (mapM (fun x => let* y := new_ast file x in expr_elem y) l).
Proof. intros H. apply mapM_map. eapply Forall_impl; [|exact H]. intros x Hx. apply exs_map; auto. Qed.

Lemma entries_map l : Forall commutes (map fst l ++ map snd l) ->
  mapM (fun kv : vnode * vnode => match kv with (k, v) =>
     let* k' := (let* y := new_ast file' k in Ok (to_expr y)) in let* v' := (let* y := new_ast file' v in Ok (to_expr y)) in Ok (k', v') end)
   (map (fun kv => match kv with (k, v) => (map_pos h k, map_pos h v) end) l) =
  omap (map (fun kv => match kv with (k, v) => (option_map G k, option_map G v) end))
   (mapM (fun kv => match kv with (k, v) =>
     let* k' := (let* y := new_ast file k in Ok (to_expr y)) in let* v' := (let* y := new_ast file v in Ok (to_expr y)) in Ok (k', v') end) l).
Proof.
  intros H. apply Forall_app in H. destruct H as [H1 H2]. apply mapM_map. rewrite Forall_forall in *. intros [k v] Hin.
  eapply bind_map; [apply ex_map; apply H1; apply in_map_iff; exists (k, v); auto|]. intros k'.
  eapply bind_map; [apply ex_map; apply H2; apply in_map_iff; exists (k, v); auto|]. reflexivity.
Qed.

Ltac fa := repeat match goal with
  | H : Forall _ (_ ++ _) |- _ => apply Forall_app in H; destruct H
  | H : Forall _ (_ :: _) |- _ => apply Forall_cons_iff in H; destruct H
  end.
Ltac piece := first
  [ eapply bind_map; [first [apply ex_map; assumption | apply oex_map; assumption | apply exss_map; assumption
      | apply casts_map; [intros []; reflexivity|assumption] | apply optM_map; [intros []; reflexivity|assumption]
      | apply ocast_map; [intros []; reflexivity|assumption]
      | apply cast_map; [intros []; reflexivity|assumption]]|intros ?]
  | cbn [omap map_node]; rewrite ?Hg, ?exarg_map; reflexivity ].
Lemma new_ast_map : forall v, commutes v.
Proof.
  apply vnode_nest. intros v IH. unfold commutes. destruct v; cbn [vsub] in IH; fa; cbn [new_ast map_pos]; try (repeat piece; fail).
  - (* method *) destruct v2; cbn [map_pos]; try reflexivity.
    fa. repeat piece.
  - eapply bind_map; [apply entries_map; apply Forall_app; auto|]. intros ?. piece.
  - cbn [map_ea ea_cmd]. destruct (ea_cmd ea); [|reflexivity]. repeat piece.
Qed.
End Export.

(** * Readers of texts with the same joined lines *)

Definition flatp (p : pos) : pos := mkPos (p_i p) 0 0 0.
Fixpoint strip (c : cursor) : cursor :=
  match c with Eof p => Eof (flatp p) | Cons x p t => Cons x (flatp p) (strip t) end.
Lemma strip_sim F F' c : forall c', strip c = strip c' -> sim false F F' flatp flatp c c'.
Proof.
  induction c as [p|x p c IH]; intros [p'|x' p' c'] E; cbn [strip] in E; try discriminate.
  - apply sim_eof; auto. unfold prel. injection E as E. unfold flatp. rewrite E. reflexivity.
  - injection E as Ex Ep Ec. subst x'. apply sim_cons; auto. unfold prel, flatp. rewrite Ep. reflexivity.
Qed.

Fixpoint cells (t : text) (i : N) (k : N -> cursor) : cursor :=
  match t with [] => k i | r :: t' => Cons (R r) (mkPos i 0 0 0) (cells t' (i + 1) k) end.
Fixpoint flat (js : list text) (i : N) : cursor :=
  match js with
  | [] => Eof (mkPos i 0 0 0)
  | t :: js' => cells t i (fun i' => Cons EOL (mkPos i' 0 0 0) (flat js' (i' + 1)))
  end.
Lemma cells_ext t k k' : (forall i, k i = k' i) -> forall i, cells t i k = cells t i k'.
Proof. intros H. induction t; cbn; intros; auto. rewrite IHt. auto. Qed.
Lemma cells_app t u k : forall i, cells (t ++ u) i k = cells t i (fun i' => cells u i' k).
Proof. induction t; cbn; intros; auto. rewrite IHt. auto. Qed.
Lemma strip_first t : forall i ln col off k, strip (put_first t i ln col off k) = cells t i (fun i' => strip (k i')).
Proof. induction t; cbn; intros; auto. rewrite IHt. reflexivity. Qed.
Lemma strip_cont t : forall i ln col k, strip (put_cont t i ln col k) = cells t i (fun i' => strip (k i')).
Proof. induction t; cbn; intros; auto. rewrite IHt. reflexivity. Qed.

Lemma strip_build js : forall lines ts rest, continued lines ts rest -> unbroken rest js ->
  forall i ln col off, strip (build_more lines i ln col off) =
    cells (concat ts) i (fun i' => Cons EOL (mkPos i' 0 0 0) (flat js (i' + 1))).
Proof.
  induction js as [|j js IHj]; intros lines ts rest Hc; induction Hc as [lines Hs|l ws t lines ts rest Hl Hc IH]; intros Hu i ln col off;
    cbn [concat cells].
  1: inversion Hu; subst; reflexivity.
  2: { destruct lines as [|l lines]; [inversion Hu|]. inversion Hu as [|l0 lines0 ts rest js0 Hc' Hu']; subst. cbn [build_more].
    assert (K : re_continuation l = false).
    { destruct (re_continuation l) eqn:K; auto. apply continuation_iff in K. destruct (Hs _ _ eq_refl K). }
    rewrite K. cbn [strip flat flatp p_i]. f_equal. rewrite strip_first, cells_app. apply cells_ext. intros.
    eapply IHj; eauto. }
  all: cbn [build_more]; assert (K : re_continuation l = true) by (apply continuation_iff; exists ws, t; auto);
    rewrite K; destruct Hl as [-> Hw]; rewrite skip_backslash_spec by (apply spaces_no_backslash; auto);
    rewrite strip_cont, cells_app; apply cells_ext; intros; apply IH; auto.
Qed.
Lemma strip_reader ts js : unbroken ts js -> strip (new_reader ts) = flat js 0.
Proof.
  intros H. destruct H as [|l lines ts rest js Hc Hu]; [reflexivity|]. cbn [new_reader flat].
  rewrite strip_first, cells_app. apply cells_ext. intros. eapply strip_build; eauto.
Qed.
Lemma join_sim F F' ts ts' js : unbroken ts js -> unbroken ts' js -> sim false F F' flatp flatp (new_reader ts) (new_reader ts').
Proof. intros H H'. apply strip_sim. rewrite (strip_reader _ _ H), (strip_reader _ _ H'). reflexivity. Qed.

Lemma flat_idx p p' q q' : prel flatp flatp p p' -> prel flatp flatp q q' -> (p_i p' =? p_i q' + 1) = (p_i p =? p_i q + 1).
Proof. unfold prel, flatp. intros A B. injection A as ->. injection B as ->. reflexivity. Qed.
Lemma flat_bare file v v' n n' : vrel flatp flatp v v' -> new_ast file v = Ok n -> new_ast file v' = Ok n' -> bare n = bare n'.
Proof.
  intros V E E'. assert (H : forall p, new_pos file (flatp p) = no_place (new_pos file p)) by reflexivity.
  pose proof (new_ast_map file file flatp no_place H v) as M. pose proof (new_ast_map file file flatp no_place H v') as M'.
  unfold commutes in *. rewrite E in M. rewrite E' in M'. unfold vrel in V. rewrite V in M. rewrite M in M'. cbn in M'. injection M' as M'. exact M'.
Qed.

Lemma export_joined file v v' : vrel flatp flatp v v' -> omap bare (new_ast file v) = omap bare (new_ast file v').
Proof.
  intros V. pose proof (new_ast_map file file flatp no_place (fun _ => eq_refl) v) as M.
  pose proof (new_ast_map file file flatp no_place (fun _ => eq_refl) v') as M'.
  unfold commutes in *. unfold vrel in V. rewrite V in M. rewrite M in M'. exact M'.
Qed.
Lemma file_joined bs bs' b b' ts ts' js file opt : seen_lines bs ts -> seen_lines bs' ts' -> unbroken ts js -> unbroken ts' js ->
  same_answer bare (ParseFile (mkSource bs b) file opt) (ParseFile (mkSource bs' b') file opt).
Proof.
  intros L L' U U'. pose proof (ParseFile_returns (mkSource bs b) file opt) as N1. pose proof (ParseFile_returns (mkSource bs' b') file opt) as N2.
  revert N1 N2.
  unfold ParseFile, parse_to_ast. fold (neovim_of opt).
  rewrite (seen_open _ _ _ L), (seen_open _ _ _ L').
  pose proof (vim_parse_closed (neovim_of opt) flatp flatp flat_idx (Eof (mkPos 0 0 0 0)) (Eof (mkPos 0 0 0 0)) _ _ (join_sim _ _ _ _ _ U U')) as G. apply orel_closed in G; [|reflexivity].
  destruct (vim_parse (neovim_of opt) (new_reader ts)) as [v|e|k|], (vim_parse (neovim_of opt) (new_reader ts')) as [v'|e'|k'|];
    cbn [orel bind recovered] in *; intros N1 N2; try contradiction; try (exfalso; congruence); try discriminate G.
  - apply (export_joined file) in G.
    destruct (new_ast file v) as [n|e|k|], (new_ast file v') as [n'|e'|k'|]; cbn in *; try discriminate; try congruence.
    injection G as <-. auto.
  - destruct G as [m [p [p' [P [-> ->]]]]]. cbn. unfold prel, flatp in P. injection P as P. rewrite P. auto.
  - exact G.
Qed.
Lemma bare_expr n : is_expr (bare n) = is_expr n. Proof. destruct n; reflexivity. Qed.
Lemma expr_joined bs bs' b b' ts ts' js : seen_lines bs ts -> seen_lines bs' ts' -> unbroken ts js -> unbroken ts' js ->
  same_answer (option_map bare) (ParseExpr (mkSource bs b)) (ParseExpr (mkSource bs' b')).
Proof.
  intros L L' U U'. pose proof (ParseExpr_cases (mkSource bs b)) as N1. pose proof (ParseExpr_cases (mkSource bs' b')) as N2.
  assert (N1' : ParseExpr (mkSource bs b) <> NoResult) by (destruct N1 as [[? [? [? [? [? [? ->]]]]]]|[? [? [? ->]]]]; discriminate).
  assert (N2' : ParseExpr (mkSource bs' b') <> NoResult) by (destruct N2 as [[? [? [? [? [? [? ->]]]]]]|[? [? [? ->]]]]; discriminate).
  clear N1 N2. revert N1' N2'. unfold ParseExpr, parse_expr_to_ast. rewrite (seen_open _ _ _ L), (seen_open _ _ _ L').
  pose proof (parse_expr_sim false (Eof (mkPos 0 0 0 0)) (Eof (mkPos 0 0 0 0)) flatp flatp _ _ (join_sim _ _ _ _ _ U U')) as G. apply orel_closed in G; [|reflexivity].
  destruct (parse_expr (new_reader ts)) as [[v c]|e|k|], (parse_expr (new_reader ts')) as [[v' c']|e'|k'|];
    cbn [orel bind recovered] in *; intros N1 N2; try contradiction; try (exfalso; congruence); try discriminate G.
  - destruct G as [G _]. apply (export_joined []) in G. cbn [fst] in G.
    destruct (new_ast [] v) as [n|e|k|], (new_ast [] v') as [n'|e'|k'|]; cbn [omap] in G; try discriminate; cbn in N1, N2; try congruence;
      cbn [bind recovered same_answer]; injection G as G; unfold to_expr; try (subst; auto; fail).
    destruct (is_expr n) eqn:Q, (is_expr n') eqn:Q'; cbn in *; try congruence.
    all: exfalso; pose proof (bare_expr n); pose proof (bare_expr n'); congruence.
  - destruct G as [m [p [p' [P [-> ->]]]]]. cbn. unfold prel, flatp in P. injection P as P. rewrite P. auto.
  - exact G.
Qed.

(** * Readers of texts with the same first lines *)

Definition same (p : pos) : pos := p.
Lemma same_prel p : prel same same p p. Proof. reflexivity. Qed.
Lemma same_idx p p' q q' : prel same same p p' -> prel same same q q' -> (p_i p' =? p_i q' + 1) = (p_i p =? p_i q + 1).
Proof. unfold prel, same. intros -> ->. reflexivity. Qed.

Lemma first_sim opn F F' t k k' : forall i ln col off, sim opn F F' same same (k (i + N.of_nat (length t))) (k' (i + N.of_nat (length t))) ->
  sim opn F F' same same (put_first t i ln col off k) (put_first t i ln col off k').
Proof.
  induction t as [|r t IH]; cbn [put_first length]; intros i ln col off H.
  - rewrite N.add_0_r in H. auto.
  - apply sim_cons; [reflexivity|]. apply IH. replace (i + 1 + N.of_nat (length t)) with (i + N.of_nat (S (length t))) by lia. auto.
Qed.
Lemma cont_sim opn F F' t k k' : forall i ln col, sim opn F F' same same (k (i + N.of_nat (length t))) (k' (i + N.of_nat (length t))) ->
  sim opn F F' same same (put_cont t i ln col k) (put_cont t i ln col k').
Proof.
  induction t as [|r t IH]; cbn [put_cont length]; intros i ln col H.
  - rewrite N.add_0_r in H. auto.
  - apply sim_cons; [reflexivity|]. apply IH. replace (i + 1 + N.of_nat (length t)) with (i + N.of_nat (S (length t))) by lia. auto.
Qed.
Lemma open_last more : starts_line more -> forall i ln col off,
  exists F, build_more more i ln col off = Cons EOL (mkPos i ln (col + 1) off) F /\ (more = [] -> exists q, F = Eof q).
Proof.
  intros H i ln col off. destruct more as [|l more]; cbn [build_more].
  - eexists. split; [reflexivity|]. eauto.
  - assert (K : re_continuation l = false).
    { destruct (re_continuation l) eqn:K; auto. apply continuation_iff in K. destruct (H _ _ eq_refl K). }
    rewrite K. eexists. split; [reflexivity|]. discriminate.
Qed.
Lemma open_build more more' : starts_line more -> starts_line more' -> forall ts i ln col off,
  exists F F', sim true F F' same same (build_more (ts ++ more) i ln col off) (build_more (ts ++ more') i ln col off) /\
    (more = [] -> exists q, F = Eof q).
Proof.
  intros H H'. induction ts as [|t ts IH]; cbn [app]; intros i ln col off.
  - destruct (open_last _ H i ln col off) as [F [-> E]]. destruct (open_last _ H' i ln col off) as [F' [-> _]].
    exists F, F'. split; auto. apply sim_last; reflexivity.
  - cbn [build_more]. destruct (re_continuation t).
    + destruct (skip_backslash t 0) as [u c]. destruct (IH (i + N.of_nat (length u)) (ln + 1) (blen t) (off + blen t + 1)) as [F [F' [S E]]].
      exists F, F'. split; auto. apply cont_sim. auto.
    + destruct (IH (i + 1 + N.of_nat (length t)) (ln + 1) (blen t) (off + 1 + blen t)) as [F [F' [S E]]].
      exists F, F'. split; auto. apply sim_cons; [reflexivity|]. apply first_sim. auto.
Qed.
Lemma open_reader t ts more more' : starts_line more -> starts_line more' ->
  exists F F', sim true F F' same same (new_reader ((t :: ts) ++ more)) (new_reader ((t :: ts) ++ more')) /\
    (more = [] -> exists q, F = Eof q).
Proof.
  intros H H'. cbn [app new_reader]. destruct (open_build more more' H H' ts (N.of_nat (length t)) 1 (blen t) (blen t)) as [F [F' [S E]]].
  exists F, F'. split; auto. apply first_sim. auto.
Qed.

(** * The text after :finish *)

Lemma map_pos_same v : map_pos same v = v.
Proof.
  induction v as [v IH] using vnode_nest.
  assert (Me : forall e, map_ea same e = e) by (intros e; destruct e; unfold map_ea; cbn; f_equal; match goal with |- option_map _ ?o = _ => destruct o; reflexivity end).
  assert (Ml : forall l, Forall (fun v => map_pos same v = v) l -> map (map_pos same) l = l)
    by (induction 1 as [|x l Hx _ IHl]; cbn [map]; [reflexivity|rewrite Hx, IHl; reflexivity]).
  assert (Mo : forall o, Forall (fun v => map_pos same v = v) (vo o) -> option_map (map_pos same) o = o)
    by (intros [x|] H; [inversion H as [|? ? Hx _]; cbn [option_map]; rewrite Hx|]; reflexivity).
  destruct v; cbn [map_pos vsub] in *; rewrite ?Me; repeat match goal with
    | H : Forall _ (_ ++ _) |- _ => apply Forall_app in H; destruct H
    | H : Forall _ (_ :: _) |- _ => inversion H; clear H; subst
    end; unfold same at 1; f_equal; auto.
  match goal with H : Forall _ (map fst ?l), H0 : Forall _ (map snd ?l) |- _ => induction l as [|[k w] l0 IHl]; cbn [map fst snd] in *; auto;
    inversion H; inversion H0; subst; f_equal; auto; f_equal; auto end.
Qed.
Lemma same_vrel v v' : vrel same same v v' -> v' = v.
Proof. unfold vrel. rewrite !map_pos_same. auto. Qed.

Lemma finish_table : forallb (fun x => negb (text_eqb (c_name x) (T "finish")) || text_eqb (c_parser x) (T "parse_cmd_finish"))
  (neovim_additional_commands ++ builtin_commands) = true.
Proof. vm_compute. reflexivity. Qed.
Lemma finish_named neovim s x : named neovim s x -> c_name x = T "finish" -> c_parser x = T "parse_cmd_finish".
Proof.
  intros H E. destruct (named_table _ _ _ H) as [K|[U ->]].
  - pose proof finish_table as G. rewrite forallb_forall in G. specialize (G _ K). rewrite E in G. apply text_eqb_eq. exact G.
  - cbn [c_name user_command] in E. subst s. discriminate U.
Qed.
Lemma file_finish bs bs' b b' ts more file opt p body q s e x :
  seen_lines bs ts -> seen_lines bs' (ts ++ more) -> starts_line more ->
  ParseFile (mkSource bs b) file opt = Returned (NFile p body) ->
  In (NExcmd q s e) body -> ae_cmd e = Some x -> c_name x = T "finish" ->
  ParseFile (mkSource bs' b') file opt = Returned (NFile p body).
Proof.
  intros L L' M H Hin Hx Hn. pose proof (ParseFile_cases (mkSource bs b) file opt) as K.
  assert (Ev : forall v, vim_parse (neovim_of opt) (new_reader ts) = Ok v -> new_ast file v = Ok (NFile p body) ->
    script (neovim_of opt) (new_reader ts) v -> match v with VToplevel _ vs => existsb fin_node vs = true | _ => False end).
  { intros v Ev En [vs [c1 [c' [-> [Hb _]]]]]. destruct (fields_from file _ _ (NExcmd q s e) En) as [u [Hu1 Hu2]]; [exact Hin|].
    cbn [vfields] in Hu1. apply existsb_exists. exists u. split; auto.
    pose proof (block_any (neovim_of opt) (new_reader ts) _ _ _ _ Hb (sfx_refl _)) as Kd. rewrite Forall_forall in Kd. specialize (Kd _ Hu1).
    destruct (new_ast_ea _ _ _ Hu2) as [_ E2]. cbn [nea] in E2. destruct (vea u) as [e'|] eqn:Eu; [|discriminate]. injection E2 as ->.
    destruct (derived_command _ _ _ _ _ _ Kd Eu) as [[p1 [s1 [-> Z]]]|[x1 [s1 [K0 [K1 [K2 [K3 K4]]]]]]];
      [cbn [new_exarg ae_cmd] in Hx; congruence|].
    cbn [new_exarg ae_cmd] in Hx. rewrite K0 in Hx. injection Hx as ->. pose proof (finish_named _ _ _ K3 Hn) as Kp.
    assert (exists p1 s1, u = VExcmd p1 e' s1) as [p1 [s2 ->]].
    { clear - Hu2 Eu. destruct u; cbn [new_ast] in Hu2;
      try match type of Hu2 with (match ?x with _ => _ end) = _ => destruct x eqn:?; try discriminate end;
      repeat match type of Hu2 with bind ?m _ = Ok _ => destruct m; cbn [bind] in Hu2; try discriminate end; inversion Hu2; subst.
      injection Eu as ->. eauto. }
    cbn [fin_node]. rewrite K0, Kp. reflexivity. }
  rewrite (seen_open _ _ _ L) in K. pose proof (vim_parse_safe (neovim_of opt) _ (open_source_wf (mkSource bs b))) as V.
  rewrite (seen_open _ _ _ L) in V.
  pose proof (ParseFile_returns (mkSource bs' b') file opt) as N2.
  unfold ParseFile, parse_to_ast in *. fold (neovim_of opt) in *. rewrite (seen_open _ _ _ L) in H. rewrite (seen_open _ _ _ L') in *.
  destruct (vim_parse (neovim_of opt) (new_reader ts)) as [v|?|?|] eqn:E0; try discriminate H. cbn [bind csafe] in *.
  assert (En : new_ast file v = Ok (NFile p body)) by (destruct (new_ast file v); try discriminate H; injection H as ->; auto).
  specialize (Ev _ eq_refl En V).
  destruct ts as [|t ts].
  { vm_compute in E0. injection E0 as <-. discriminate Ev. }
  destruct (open_reader t ts [] more) as [F [F' [S Q]]]; auto. { intros ? ? ?; discriminate. }
  destruct (Q eq_refl) as [q0 ->]. rewrite app_nil_r in S.
  pose proof (open_source_wf (mkSource bs b)) as W. rewrite (seen_open _ _ _ L) in W.
  pose proof (open_source_wf (mkSource bs' b')) as W'. rewrite (seen_open _ _ _ L') in W'.
  destruct (vim_parse_open (neovim_of opt) same same same_idx q0 F' _ _ W W' v S E0 Ev) as [G|[v' [G R]]].
  - rewrite G in N2. destruct (N2 eq_refl).
  - rewrite G. cbn [bind]. apply same_vrel in R. subst v'. rewrite En. reflexivity.
Qed.

(** * The text after an expression *)

Lemma expr_lines bs bs' b b' t ts more more' n :
  seen_lines bs ((t :: ts) ++ more) -> seen_lines bs' ((t :: ts) ++ more') -> starts_line more -> starts_line more' ->
  ParseExpr (mkSource bs b) = Returned n -> ParseExpr (mkSource bs' b') = Returned n.
Proof.
  intros L L' M M' H. pose proof (ParseExpr_cases (mkSource bs' b')) as N2.
  assert (N2' : ParseExpr (mkSource bs' b') <> NoResult) by (destruct N2 as [[? [? [? [? [? [? ->]]]]]]|[? [? [? ->]]]]; discriminate).
  clear N2. revert H N2'. unfold ParseExpr, parse_expr_to_ast. rewrite (seen_open _ _ _ L), (seen_open _ _ _ L').
  destruct (open_reader t ts more more' M M') as [F [F' [S _]]]. pose proof (parse_expr_sim true F F' same same _ _ S) as G.
  destruct (parse_expr (new_reader _)) as [[v c]|e|k|]; try discriminate;
  destruct (parse_expr _) as [[v' c']|e'|k'|]; cbn [orel bind recovered] in *; intros H N2; try contradiction; try congruence.
  destruct G as [G _]. cbn [fst] in G. apply same_vrel in G. subst v'. exact H.
Qed.


Definition begins (c : cursor) : Prop := exists d r, blank c d /\ peek1 d = Some r.
Lemma spells_peek1 s c c' : spells s c c' -> s <> [] -> exists r, peek1 c = Some r.
Proof. destruct s as [|r s]; [congruence|]. cbn [spells]. destruct c as [|[|x] p c]; try contradiction. cbn. eauto. Qed.
Lemma number_nonempty s : number_text s -> s <> [].
Proof.
  intros H Z; subst s. inversion H as [? [Q _]|? ? [Q _] _ |? ? ? ? ? [Q _]| |]; subst; try congruence;
    match goal with X : _ ++ _ = [] |- _ => apply app_eq_nil in X; destruct X; congruence end.
Qed.
Lemma lexeme_nonempty k s : lexeme k s -> s <> [].
Proof.
  destruct k; unfold lexeme; cbn [spelling]; try apply number_nonempty;
    try (intros -> E; discriminate E); try contradiction.
  all: try (intros [? [? [? [? [? ->]]]]]; discriminate).
  all: try (intros [? [? [? [? ->]]]]; discriminate).
  all: try (intros [? [? ->]]; discriminate).
  all: try (intros [? [? [-> ?]]]; discriminate).
  intros -> E. match goal with o : cmpop |- _ => destruct o; discriminate end.
Qed.
Lemma token_begins c t c' : token_at c t c' -> tk t <> KEof -> tk t <> KEol -> begins c.
Proof.
  intros [d [B [_ H]]] E1 E2. exists d. assert (S : spells (tv t) d c' /\ lexeme (tk t) (tv t)) by (destruct (tk t); congruence || exact H).
  destruct S as [S L]. apply lexeme_nonempty in L. destruct (spells_peek1 _ _ _ S L) as [r R]. eauto.
Qed.
Lemma tok_begins k c p c' : tok_at k c p c' -> k <> KEof -> k <> KEol -> begins c.
Proof. intros [t [H [<- _]]]. apply (token_begins _ _ _ H). Qed.
Lemma derivation_begins :
  (forall l c v c', dexpr l c v c' -> begins c) /\
  (forall c v c', dopt c v c' -> True) /\
  (forall k c vs c', dlist k c vs c' -> True) /\
  (forall l c kvs c', dentries l c kvs c' -> True) /\
  (forall l c v c', dkey l c v c' -> True) /\
  (forall c ps c', dname c ps c' -> ps <> [] -> exists r, peek1 c = Some r) /\
  (forall c ps c', dparts c ps c' -> ps <> [] -> exists r, peek1 c = Some r).
Proof.
  apply dexpr_mutind; intros; auto.
  - eapply tok_begins; eauto; intros ->; discriminate.
  - eapply token_begins; eauto; intros E; rewrite E in *; discriminate.
  - destruct (spells_peek1 _ _ _ s0 (string_nonempty _ s1)) as [r R]. exists d, r. auto.
  - eapply tok_begins; eauto; discriminate.
  - eapply tok_begins; eauto; destruct lit; discriminate.
  - eapply tok_begins; eauto; destruct lit; discriminate.
  - eapply tok_begins; eauto; discriminate.
  - destruct H as [r R]; [discriminate|]. exists d, r. auto.
  - destruct H as [r R]; [auto|]. exists d, r. auto.
  - eapply spells_peek1; eauto. intros ->. discriminate i.
  - congruence.
  - match goal with X : some_of _ _ |- _ => destruct X end. eapply spells_peek1; eauto.
  - eapply spells_peek1; eauto. discriminate.
Qed.
Lemma strip_spells s : forall c d, spells s c d -> spells s (strip c) (strip d).
Proof. induction s as [|r s IH]; cbn [spells]; intros [|[|x] p c] d H; try contradiction; subst; auto. destruct H. split; auto. Qed.
Lemma strip_peek1 c : peek1 (strip c) = peek1 c. Proof. destruct c as [|[|] ? ?]; reflexivity. Qed.
Lemma strip_begins c : begins c -> begins (strip c).
Proof. intros [d [r [[ws [S [W N]]] R]]]. exists (strip d), r. rewrite strip_peek1. split; auto. exists ws. split; [apply strip_spells; auto|]. split; auto. rewrite strip_peek1. auto. Qed.
Lemma cells_begins t k : (forall i, peek1 (k i) = None) -> forall i, begins (cells t i k) -> exists r, In r t /\ iswhite r = false.
Proof.
  intros Hk. induction t as [|r t IH]; cbn [cells]; intros i [d [x [[ws [S [W N]]] R]]].
  - destruct ws as [|w ws]; cbn [spells] in S; [subst; rewrite Hk in R; discriminate|]. specialize (Hk i).
    destruct (k i) as [|[|] ? ?]; try contradiction. discriminate.
  - destruct ws as [|w ws]; cbn [spells] in S.
    + subst d. cbn in R. injection R as <-. exists r. split; [left; auto|]. apply N. reflexivity.
    + destruct S as [<- S]. cbn [forallb] in W. apply andb_true_iff in W. destruct W as [W1 W].
      destruct (IH (i + 1)) as [y [Y1 Y2]]. exists d, x. split; auto. exists ws. auto. exists y. split; auto. right; auto.
Qed.
Lemma expr_begins bs b ts js n : seen_lines bs ts -> unbroken ts js -> ParseExpr (mkSource bs b) = Returned n ->
  exists j js' r, js = j :: js' /\ In r j /\ iswhite r = false.
Proof.
  intros L U H. destruct (ParseExpr_cases (mkSource bs b)) as [[v [c' [m [D _]]]]|[? [? [_ K]]]]; [|congruence].
  rewrite (seen_open _ _ _ L) in D. apply derivation_begins, strip_begins in D. rewrite (strip_reader _ _ U) in D.
  destruct js as [|j js].
  - exfalso. destruct D as [d [r [[ws [S _]] R]]]. cbn [flat] in S. destruct ws; [|contradiction]. cbn in S. subst d. discriminate.
  - cbn [flat] in D. apply cells_begins in D; [|reflexivity]. destruct D as [r [R1 R2]]. eauto 6.
Qed.

(** * Joining lines *)

Lemma continued_exists : forall lines, exists ts rest, continued lines ts rest /\ (length rest <= length lines)%nat.
Proof.
  induction lines as [|l lines IH].
  - exists [], []. split; auto. constructor. intros ? ? ?; discriminate.
  - destruct (re_continuation l) eqn:K.
    + apply continuation_iff in K. destruct K as [ws [t K]]. destruct IH as [ts [rest [H1 H2]]].
      exists (t :: ts), rest. split; [econstructor; eauto|cbn; lia].
    + exists [], (l :: lines). split; auto. constructor. intros ? ? E. injection E as <- <-. intros Z. apply continuation_iff in Z. congruence.
Qed.
Lemma unbroken_exists lines : exists js, unbroken lines js.
Proof.
  remember (length lines) as n eqn:Hn. assert (L : (length lines <= n)%nat) by lia. clear Hn. revert lines L.
  induction n as [|n IH]; intros [|l lines] L; try (exists []; constructor); [cbn in L; lia|].
  destruct (continued_exists lines) as [ts [rest [H1 H2]]]. cbn in L. destruct (IH rest ltac:(lia)) as [js J].
  exists ((l ++ concat ts) :: js). econstructor; eauto.
Qed.
Lemma unbroken_self j js : Forall (fun l => ~ is_continuation l) js -> unbroken (j :: js) (j :: js).
Proof.
  intros H. revert j. induction H as [|l js Hl _ IH]; intros j.
  - replace j with (j ++ concat []) at 2 by apply app_nil_r. eapply ub_line; constructor. intros ? ? ?; discriminate.
  - replace j with (j ++ concat []) at 2 by apply app_nil_r. eapply ub_line; [constructor|auto]. intros ? ? E. injection E as <- <-. auto.
Qed.
