(** Written scripts are parsed: blocks, their parts, comments and here-documents. *)
From Coq Require Import Lia ZifyBool ZifyNat ZifyN.
From Verif Require Import Base CharClass Reader Vnode Token Tokenizer ExprParser Cursor Grammar TokSafe Ast Export Join JoinProof Head HeadProof Script Extent CmdSpec Written WrittenProof Lookahead WrittenBrace PrintBack CmdTable CmdParser CmdBase CmdArgs OneLine WrittenScript TargetProof ArgsProof StmtShow FindBack HeadBack LineProof ListingBack ExtentBack.

(** * Steps of the parser *)

Inductive steps (nv : bool) : pstate -> pstate -> Prop :=
| st_none st : steps nv st st
| st_one st st1 st2 : is_eof (cur st) = false -> parse_one_cmd nv st = Ok st1 -> steps nv st1 st2 -> steps nv st st2.
Lemma steps_trans nv a b c : steps nv a b -> steps nv b c -> steps nv a c.
Proof. induction 1; auto. intros. eapply st_one; eauto. Qed.
Lemma steps_loop nv st st' : steps nv st st' -> forall m, exists m', cmds_loop nv m st = OutOfFuel \/ cmds_loop nv m st = cmds_loop nv m' st'.
Proof.
  induction 1 as [st|st st1 st2 He H1 _ IH]; intros m; [exists m; auto|]. destruct m as [|m]; [exists O; auto|].
  cbn [cmds_loop]. rewrite He, H1. cbn [bind]. apply IH.
Qed.

Definition add_all (vs : list vnode) (f : frame) : frame := mkFrame (f_kind f) (f_pos f) (f_ea f) (f_body f ++ vs).
Lemma add_none f : add_all [] f = f.
Proof. destruct f. unfold add_all. cbn. rewrite app_nil_r. reflexivity. Qed.
Lemma add_all_app a b f : add_all b (add_all a f) = add_all (a ++ b) f.
Proof. unfold add_all. cbn. rewrite app_assoc. reflexivity. Qed.
Lemma add_body_all v f : add_body v f = add_all [v] f.
Proof. reflexivity. Qed.
Lemma allows_add w vs f r : allows w (f :: r) -> allows w (add_all vs f :: r).
Proof. unfold allows. cbn. auto. Qed.
Lemma allows_block w f r : f_kind f <> FTop -> allows w r -> allows (in_block w) (f :: r).
Proof. unfold allows, in_block. cbn [pl_fun pl_loop existsb]. intros Hf [H1 [H2 _]]. split; [|split; [|auto]]; intros H; [rewrite (H1 H), orb_true_r; reflexivity|]. specialize (H2 H). apply orb_true_iff in H2. destruct H2 as [->| ->]; rewrite !orb_true_r; auto. Qed.
Lemma allows_loop w f r : is_while (f_kind f) || is_for (f_kind f) = true -> allows w r -> allows (in_loop w) (f :: r).
Proof.
  unfold allows, in_loop. cbn [pl_fun pl_loop existsb]. intros Hf [H1 [H2 _]]. split; [|split]; intros H; [rewrite (H1 H), orb_true_r; reflexivity| |destruct (f_kind f); discriminate].
  apply orb_true_iff in Hf. destruct Hf as [-> | ->]; cbn [orb]; rewrite ?orb_true_r; reflexivity.
Qed.
Lemma allows_function w f r : is_function (f_kind f) = true -> allows w r -> allows (in_function w) (f :: r).
Proof.
  unfold allows, in_function. cbn [pl_fun pl_loop existsb]. intros Hf [H1 [H2 _]]. split; [|split]; intros H; [rewrite Hf; reflexivity| |destruct (f_kind f); discriminate].
  specialize (H2 H). apply orb_true_iff in H2. destruct H2 as [->| ->]; rewrite !orb_true_r; auto.
Qed.

(** * The end of a command *)

Definition nobar (k : cursor) : Prop := ch_is (peek k) (C "|") = false.

Lemma lay_one x k k2 : lay [x] k k2 -> exists p, k = Cons x p k2.
Proof. intros H. apply lay_cons in H. destruct H as [p [t [-> H]]]. cbn in H. subst t. eauto. Qed.

Lemma ended_ends e cm cs t k k2 : ended e cm cs t -> lay t k k2 -> (nobar k2 \/ exists u, t = u ++ [EOL]) -> ends e cm k.
Proof.
  intros H L Hb. inversion H as [e' cm' w Hw He|cm' w Hw|w p s Hw]; subst.
  - apply lay_app in L. destruct L as [d [L1 L2]]. apply lay_chars in L1. apply lay_one in L2. destruct L2 as [p ->].
    exists w. eexists. split; [auto|]. split; [eauto|]. split; eauto.
  - unfold chars in L. rewrite map_app in L. apply lay_app in L. destruct L as [d [L1 L2]]. apply lay_chars in L1. apply lay_one in L2. destruct L2 as [p ->].
    exists w. eexists. split; [auto|]. split; [eauto|]. split; [discriminate|]. right. left. split; auto. exists p, k2. split; auto.
    destruct Hb as [Hb|[u Hu]]; auto. exfalso. unfold chars in Hu. rewrite map_app in Hu. apply app_inj_tail in Hu. destruct Hu as [_ Hu]. discriminate.
  - unfold chars in L. rewrite map_app in L. rewrite <- app_assoc in L. apply lay_app in L. destruct L as [d [L1 L2]]. apply lay_chars in L1.
    cbn [map app] in L2. apply lay_cons in L2. destruct L2 as [q [d2 [-> L2]]].
    exists w. eexists. split; [auto|]. split; [eauto|]. split; [discriminate|]. right. right. eauto.
Qed.

Lemma comment_read p0 s d p k2 f r ch : spells s d (Cons EOL p k2) ->
  (let* st1 := parse_comment (mkSt (Cons (R (C """")) p0 d) (f :: r) ch) in Ok (with_cur (snd (get (cur st1))) st1)) =
  Ok (mkSt k2 (add_all [VComment p0 s] f :: r) ch).
Proof. intros H. unfold parse_comment. cbn [cur get]. cbn. rewrite (getn_all_exact _ _ _ _ H). reflexivity. Qed.

Lemma ended_trail e cm cs t k k2 f r ch : ended e cm cs t -> lay t k k2 ->
  exists vs, parse_trail (mkSt k (f :: r) ch) = Ok (mkSt k2 (add_all vs f :: r) ch) /\ Forall2 shows_s vs cs.
Proof.
  intros H L. inversion H as [e' cm' w Hw He|cm' w Hw|w p s Hw]; subst.
  - apply lay_app in L. destruct L as [d [L1 L2]]. apply lay_chars in L1. apply lay_one in L2. destruct L2 as [p ->].
    exists []. split; auto. unfold parse_trail. cbn [cur]. rewrite (skip_gap w _ _ Hw L1 eq_refl). cbn. rewrite add_none. reflexivity.
  - unfold chars in L. rewrite map_app in L. apply lay_app in L. destruct L as [d [L1 L2]]. apply lay_chars in L1. apply lay_one in L2. destruct L2 as [p ->].
    exists []. split; auto. unfold parse_trail. cbn [cur]. rewrite (skip_gap w _ _ Hw L1 eq_refl). cbn. rewrite add_none. reflexivity.
  - unfold chars in L. rewrite map_app in L. rewrite <- app_assoc in L. apply lay_app in L. destruct L as [d [L1 L2]]. apply lay_chars in L1.
    cbn [map app] in L2. apply lay_cons in L2. destruct L2 as [q [d2 [-> L2]]]. apply lay_app in L2. destruct L2 as [d3 [L2 L3]]. apply lay_one in L3. destruct L3 as [p3 ->].
    apply lay_chars in L2. exists [VComment q s]. split; [|constructor; [apply ss_comment|constructor]].
    unfold parse_trail. cbn [cur]. rewrite (skip_gap w _ _ Hw L1 eq_refl). cbn [peek ch_of_cell]. unfold with_cur at 1. cbn [ctx cache].
    exact (comment_read q s d2 p3 k2 f r ch L2).
Qed.

(** * No bar at the start of a command *)

Lemma alpha_nobar r : isalpha r = true -> r <> C "|".
Proof. intros H ->. discriminate. Qed.
Lemma lead_bar r : lead_class r = true -> (r =? C "|") = false.
Proof. unfold lead_class, one_of, isalpha, isdigit, iswhite, isupper, islower, between. cbn. lia. Qed.
Lemma head_first nv x h tl nm bang white opts rest : head_line nv x h tl nm bang white opts rest ->
  starts_with (fun r => r =? C "|") (tl ++ nm ++ bang ++ white ++ opts ++ rest) = false.
Proof.
  intros [HT Hres _ _]. eapply lead_first; [exact lead_bar|exact (ht_lead _ _ _ _ _ _ _ _ _ HT)|].
  destruct (resolves_starts _ _ _ _ Hres) as [r0 [u0 [E0 Hs0]]]. rewrite E0. cbn [starts_with].
  pose proof (quote_sign r0 ltac:(rewrite Hs0; reflexivity)) as Hq. cbn in Hq |- *. lia.
Qed.
Lemma command_alpha nv P rest a h : command nv P rest a h -> In P stmt_parsers -> exists r y, h = r :: y /\ r <> C "|".
Proof.
  intros H HP. assert (G : forall y x, first_match nv y x -> c_parser x = P -> exists r z, y = r :: z /\ r <> C "|").
  { intros y x Hf <-. destruct (stmt_word _ _ _ Hf HP) as [Hg _]. destruct y as [|r y]; [discriminate|]. exists r, y. split; auto. apply alpha_nobar. cbn [good_word] in Hg.
    apply andb_true_iff in Hg. destruct Hg as [Hg _]. apply andb_true_iff in Hg. destruct Hg as [Hg _]. apply andb_true_iff in Hg. destruct Hg as [_ Hg]. cbn [forallb] in Hg. apply andb_true_iff in Hg. tauto. }
  destruct H as [y x w p q r Hf Hx _ _|y x w p q r Hf Hx _ _|x a tl nm bang w Hx Ha Hp Hall].
  1,2: destruct (G _ _ Hf Hx) as [r0 [z [-> Hr]]]; do 2 eexists; (split; [reflexivity|]); auto.
  specialize (Hall [] [] eq_refl (fun _ => eq_refl) (fun _ => conj I I)). pose proof (head_first _ _ _ _ _ _ _ _ _ Hall) as Hf.
  rewrite <- Hx in HP. destruct (stmt_alpha _ _ _ _ (hl_name _ _ _ _ _ _ _ _ _ Hall) HP) as [r1 [nm' [Enm _]]]. subst nm.
  destruct tl as [|r2 tl]; cbn [app] in *; do 2 eexists; (split; [reflexivity|]); cbn [starts_with] in Hf; intros ->; discriminate.
Qed.
Ltac inp := apply mem_text_In; reflexivity.

Lemma line_cmd_alpha nv w e cm n s : line_cmd nv w e cm n s -> exists r y, s = r :: y /\ r <> C "|".
Proof.
  intros H. inversion H; subst;
  match goal with Hc : command _ ?P _ _ ?h |- _ => 
    assert (HP : In P stmt_parsers) by (first [inp | apply echo_parser_in]);
    destruct (command_alpha _ _ _ _ _ Hc HP) as [r0 [y0 [-> Hr]]] end; do 2 eexists; (split; [reflexivity|]); auto.
Qed.
Lemma block_cmd_alpha nv w e cm n u : block_cmd nv w e cm n u -> exists r y, u = R r :: y /\ r <> C "|".
Proof.
  intros H. inversion H; subst.
  1: match goal with Hc : line_cmd _ _ _ _ _ _ |- _ => destruct (line_cmd_alpha _ _ _ _ _ _ Hc) as [r0 [y0 [-> Hr]]] end; do 2 eexists; (split; [reflexivity|]); auto.
  all: match goal with Hc : command _ ?P _ _ ?h |- context [chars ?h] => 
    assert (HP : In P stmt_parsers) by inp; destruct (command_alpha _ _ _ _ _ Hc HP) as [r0 [y0 [-> Hr]]]
    | Hc : command _ ?P _ _ ?h |- context [chars (?h ++ _)] => 
    assert (HP : In P stmt_parsers) by inp; destruct (command_alpha _ _ _ _ _ Hc HP) as [r0 [y0 [-> Hr]]] end; do 2 eexists; (split; [reflexivity|]); auto.
Qed.

Lemma lay_nobar r y c k : lay (R r :: y) c k -> r <> C "|" -> nobar c.
Proof. intros L H. apply lay_cons in L. destruct L as [p [t [-> _]]]. unfold nobar. cbn in *. lia. Qed.
Lemma lead_nobar l s c k : lead l -> (forall c, lay s c k -> nobar c) -> lay (chars l ++ s) c k -> nobar c.
Proof.
  intros Hl H L. destruct l as [|x l]; [apply H; auto|]. eapply lay_nobar; [exact L|]. unfold lead in Hl. cbn [forallb] in Hl. apply andb_true_iff in Hl. destruct Hl as [Hl _].
  intros ->. discriminate.
Qed.
Lemma cmd_nobar nv P rest a h l z c k : lead l -> command nv P rest a h -> In P stmt_parsers -> lay (chars (l ++ h) ++ z) c k -> nobar c.
Proof.
  intros Hl Hc HP L. unfold chars in L. rewrite map_app, <- app_assoc in L. eapply lead_nobar; eauto. intros c' L'.
  destruct (command_alpha _ _ _ _ _ Hc HP) as [r0 [y0 [-> Hr]]]. eapply lay_nobar; [exact L'|auto].
Qed.
Lemma cmd_nobar2 nv P rest a h l y z c k : lead l -> command nv P rest a h -> In P stmt_parsers -> lay (chars (l ++ h ++ y) ++ z) c k -> nobar c.
Proof.
  intros Hl Hc HP L. apply (cmd_nobar nv P rest a h l (chars y ++ z) c k); auto. rewrite app_assoc in L. unfold chars in *. rewrite map_app in L. rewrite <- app_assoc in L. exact L.
Qed.

Lemma ended_rest e cm cs t k k2 : ended e cm cs t -> lay t k k2 -> exists z, line_after t z /\ rest_of k z.
Proof.
  intros H L. inversion H as [e' cm' w Hw He|cm' w Hw|w p s Hw]; subst.
  - apply lay_app in L. destruct L as [d [L1 L2]]. apply lay_chars in L1. apply lay_one in L2. destruct L2 as [p ->].
    exists w. split; [left; reflexivity|]. exists (Cons EOL p k2). split; [auto|reflexivity].
  - apply lay_chars in L. destruct (rest_exists k2) as [u Ru]. exists ((w ++ T "|") ++ u). split; [right; eauto|eapply rest_app; eauto].
  - apply lay_app in L. destruct L as [d [L1 L2]]. apply lay_chars in L1. apply lay_one in L2. destruct L2 as [q ->].
    exists (w ++ C """" :: s). split; [left; reflexivity|]. exists (Cons EOL q k2). split; [auto|reflexivity].
Qed.
Lemma rest_nobar c s : rest_of c s -> starts_with (fun r => r =? C "|") s = false -> nobar c.
Proof. intros Hr Hs. unfold nobar. rewrite <- Hs. pose proof (peek1_rest _ _ Hr) as Hp. destruct s as [|r s], c as [|[|r'] ? ?]; try discriminate; auto. injection Hp as ->. reflexivity. Qed.
Lemma lead_starts l s : lead l -> starts_with (fun r => r =? C "|") s = false -> starts_with (fun r => r =? C "|") (l ++ s) = false.
Proof.
  intros Hl Hs. destruct l as [|x l]; auto. unfold lead in Hl. cbn [forallb] in Hl. apply andb_true_iff in Hl. destruct Hl as [Hl _].
  cbn [app starts_with]. destruct (N.eqb_spec x (C "|")) as [->|Hx]; [discriminate|reflexivity].
Qed.
Lemma bare_first tl h z : tl <> [] -> bare_line tl h z -> starts_with (fun r => r =? C "|") (tl ++ z) = false.
Proof. intros Hne [H _]. eapply lead_first2; eauto. exact lead_bar. Qed.
Lemma lay_rest s t u e cm cs c k : ended e cm cs t -> lay (chars s ++ t ++ u) c k -> exists k1 k2 z, spells s c k1 /\ lay t k1 k2 /\ lay u k2 k /\ line_after t z /\ rest_of k1 z /\ rest_of c (s ++ z).
Proof.
  intros H L. apply lay_app in L. destruct L as [k1 [L1 L2]]. apply lay_chars in L1. apply lay_app in L2. destruct L2 as [k2 [L2 L3]].
  destruct (ended_rest _ _ _ _ _ _ H L2) as [z [Hz Rz]]. exists k1, k2, z. repeat split; auto. eapply rest_app; eauto.
Qed.
Lemma lay_text_line s u ls c k : lay (lines_text (s :: ls) ++ u) c k -> exists p t, spells s c (Cons EOL p t) /\ lay (lines_text ls ++ u) t k /\ rest_of c s.
Proof.
  intros L. cbn [lines_text map concat] in L. rewrite <- !app_assoc in L. cbn [app] in L. destruct (lay_line _ _ _ _ L) as [p [t [Sp Lt]]].
  exists p, t. repeat split; auto. exists (Cons EOL p t). split; [auto|reflexivity].
Qed.

Lemma blocks_nobar nv w ns s c k : blocks nv w ns s -> lay s c k -> nobar k -> nobar c.
Proof.
  intros H L Hk. inversion H; subst.
  - cbn in L. congruence.
  - eapply lead_nobar; eauto. intros c' L'. apply lay_cons in L'. destruct L' as [p [t [-> _]]]. reflexivity.
  - eapply lay_nobar; [exact L|discriminate].
  - unfold chars in L. rewrite map_app, <- app_assoc in L. eapply lead_nobar; eauto. intros c' L'. eapply lay_nobar; [exact L'|discriminate].
  - eapply lead_nobar; eauto. intros c' L'. match goal with H : block_cmd _ _ _ _ _ _ |- _ => destruct (block_cmd_alpha _ _ _ _ _ _ H) as [r0 [y0 [-> Hr]]] end.
    eapply lay_nobar; [exact L'|auto].
  - eapply cmd_nobar2; eauto. inp.
  - (* text *) match goal with Hl : lead ?l, Hen : ended _ _ _ _, Hall : forall z, _ -> text_line _ _ _ _ _ _ _ _ _ _ _ |- _ =>
      destruct (lay_rest _ _ _ _ _ _ _ _ Hen L) as [k1 [k2 [z [_ [_ [_ [Hz [_ Rc]]]]]]]]; specialize (Hall z Hz); destruct Hall as [Hh _] end.
    eapply rest_nobar; [exact Rc|]. rewrite <- !app_assoc. apply lead_starts; auto. eapply head_first; eauto.
  - (* lines *) destruct (lay_text_line _ _ _ _ _ L) as [q [t [_ [_ Rc]]]]. eapply rest_nobar; [exact Rc|]. apply lead_starts; auto. eapply head_first; eauto.
  - match goal with Hl : lead ?l, Hen : ended _ _ _ _, Hall : forall z, _ -> bare_line _ _ _ |- _ =>
      destruct (lay_rest _ _ _ _ _ _ _ _ Hen L) as [k1 [k2 [z [_ [_ [_ [Hz [_ Rc]]]]]]]]; specialize (Hall z Hz) end.
    eapply rest_nobar; [exact Rc|]. rewrite <- !app_assoc. apply lead_starts; auto. eapply bare_first; eauto.
  - match goal with Hl : lead ?l, Hen : ended _ _ _ _, Hall : forall z, _ -> bare_line _ _ _ |- _ =>
      destruct (lay_rest _ _ _ _ _ _ _ _ Hen L) as [k1 [k2 [z [_ [_ [_ [Hz [_ Rc]]]]]]]]; specialize (Hall z Hz) end.
    eapply rest_nobar; [exact Rc|]. rewrite <- !app_assoc. apply lead_starts; auto. eapply bare_first; eauto.
Qed.
Lemma if_parts_nobar nv w es el s c k : if_parts nv w es el s -> lay s c k -> nobar k -> nobar c.
Proof.
  intros H L Hk. inversion H; subst.
  - cbn in L. congruence.
  - eapply cmd_nobar; eauto. inp.
  - eapply cmd_nobar2; eauto. inp.
Qed.
Lemma try_parts_nobar nv w es el s c k : try_parts nv w es el s -> lay s c k -> nobar k -> nobar c.
Proof.
  intros H L Hk. inversion H; subst.
  - cbn in L. congruence.
  - eapply cmd_nobar; eauto. inp.
  - eapply cmd_nobar2; eauto. inp.
Qed.

(** * Blocks *)

Ltac wfs := solve [assumption | eauto 8 using lay_wf, spells_wf].

Section Blocks.
Context (nv : bool).

(** A command with its blocks. *)
Definition cmd_read (w : place) (e cm : bool) (n : node) (u : list cell) : Prop :=
  forall l c c0 k f r ch, lead l -> spells l c c0 -> lay u c0 k -> wf c -> ends e cm k -> cache_ok nv ch -> allows w (f :: r) ->
  exists st0 v ch', steps nv (mkSt c (f :: r) ch) st0 /\ is_eof (cur st0) = false /\
    parse_one_cmd nv st0 = parse_trail (mkSt k (add_body v f :: r) ch') /\ shows_s v n /\ cache_ok nv ch'.
(** Statements one after the other. *)
Definition blocks_read (w : place) (ns : list node) (s : list cell) : Prop :=
  forall c k f r ch, lay s c k -> wf c -> nobar k -> cache_ok nv ch -> allows w (f :: r) ->
  exists vs ch', steps nv (mkSt c (f :: r) ch) (mkSt k (add_all vs f :: r) ch') /\ Forall2 shows_s vs ns /\ cache_ok nv ch'.

(** [open_if more fr g r]: [fr] is the context inside the conditional [g], which is as it
    will be when the part being read is closed; [more]: further parts can follow. *)
Definition open_if (more : bool) (fr : list frame) (g : frame) (r : list frame) : Prop :=
  is_if (f_kind g) = true /\
  (fr = g :: r \/
   exists p g0, fr = p :: g0 :: r /\ is_if (f_kind p) = false /\
     (match f_kind p with FElseif _ => True | FElse => more = false | _ => False end) /\
     forall c ch, pop_part (mkSt c fr ch) = Ok (mkSt c (g :: r) ch)).
Lemma open_if_more fr g r : open_if true fr g r -> open_if false fr g r.
Proof. intros [H [H1|[p [g0 [H1 [H2 [H3 H4]]]]]]]; split; auto. right. exists p, g0. repeat split; auto. destruct (f_kind p); auto. Qed.
Lemma open_if_close more fr g r c ch : open_if more fr g r ->
  exists f1, top_frame (mkSt c fr ch) = Ok f1 /\ is_if_part (f_kind f1) = true /\
    (more = true -> match f_kind f1 with FIf _ _ _ | FElseif _ => true | _ => false end = true) /\
    (if is_if (f_kind f1) then Ok (mkSt c fr ch) else pop_part (mkSt c fr ch)) = Ok (mkSt c (g :: r) ch).
Proof.
  intros [H [->|[p [g0 [-> [H2 [H3 H4]]]]]]].
  - exists g. split; [reflexivity|]. rewrite H. destruct (f_kind g); try discriminate. auto.
  - exists p. split; [reflexivity|]. rewrite H2, H4. destruct (f_kind p); try contradiction; repeat split; auto. intros ->. discriminate.
Qed.
Definition if_read (w : place) (es : list node) (el : option node) (s : list cell) : Prop :=
  forall c k fr cond es0 gp ge gb r ch, lay s c k -> wf c -> nobar k -> cache_ok nv ch -> allows w r ->
    open_if true fr (mkFrame (FIf cond es0 None) gp ge gb) r ->
  exists fr' es' el' ch', steps nv (mkSt c fr ch) (mkSt k fr' ch') /\ open_if false fr' (mkFrame (FIf cond (es0 ++ es') el') gp ge gb) r /\
    Forall2 (shows_k is_elseif) es' es /\ shows_ko is_else el' el /\ cache_ok nv ch'.

Definition open_try (more : bool) (fr : list frame) (g : frame) (r : list frame) : Prop :=
  is_try (f_kind g) = true /\
  (fr = g :: r \/
   exists p g0, fr = p :: g0 :: r /\ is_try (f_kind p) = false /\
     (match f_kind p with FCatch _ => True | FFinally => more = false | _ => False end) /\
     forall c ch, pop_part (mkSt c fr ch) = Ok (mkSt c (g :: r) ch)).
Lemma open_try_more fr g r : open_try true fr g r -> open_try false fr g r.
Proof. intros [H [H1|[p [g0 [H1 [H2 [H3 H4]]]]]]]; split; auto. right. exists p, g0. repeat split; auto. destruct (f_kind p); auto. Qed.
Lemma open_try_close more fr g r c ch : open_try more fr g r ->
  exists f1, top_frame (mkSt c fr ch) = Ok f1 /\ is_try_part (f_kind f1) = true /\
    (more = true -> match f_kind f1 with FTry _ _ | FCatch _ => true | _ => false end = true) /\
    (if is_try (f_kind f1) then Ok (mkSt c fr ch) else pop_part (mkSt c fr ch)) = Ok (mkSt c (g :: r) ch).
Proof.
  intros [H [->|[p [g0 [-> [H2 [H3 H4]]]]]]].
  - exists g. split; [reflexivity|]. rewrite H. destruct (f_kind g); try discriminate. auto.
  - exists p. split; [reflexivity|]. rewrite H2, H4. destruct (f_kind p); try contradiction; repeat split; auto. intros ->. discriminate.
Qed.
Definition try_read (w : place) (es : list node) (fi : option node) (s : list cell) : Prop :=
  forall c k fr es0 gp ge gb r ch, lay s c k -> wf c -> nobar k -> cache_ok nv ch -> allows w r ->
    open_try true fr (mkFrame (FTry es0 None) gp ge gb) r ->
  exists fr' es' fi' ch', steps nv (mkSt c fr ch) (mkSt k fr' ch') /\ open_try false fr' (mkFrame (FTry (es0 ++ es') fi') gp ge gb) r /\
    Forall2 (shows_k is_catch) es' es /\ shows_ko is_finally fi' fi /\ cache_ok nv ch'.

(** A block that has been opened, up to the end of its statements. *)
Lemma open_run w cs t b sb st k1 k1' k2 k3 F r ch e : is_eof (cur st) = false -> parse_one_cmd nv st = parse_trail (mkSt k1' (F :: r) ch) ->
  skip_white k1' = skip_white k1 -> ended e true cs t -> lay t k1 k2 -> lay sb k2 k3 -> blocks_read w b sb -> wf k1 -> nobar k3 -> cache_ok nv ch -> allows w (F :: r) ->
  exists vs ch', steps nv st (mkSt k3 (add_all vs F :: r) ch') /\ Forall2 shows_s vs (cs ++ b) /\ cache_ok nv ch'.
Proof.
  intros He H1 Hk Hen Lt Lb Hb Wf Hn Hch Ha. rewrite (trail_skip k1' k1 _ _ Hk) in H1.
  destruct (ended_trail e true cs t k1 k2 F r ch Hen Lt) as [vs [E Sv]]. rewrite E in H1.
  destruct (Hb k2 k3 (add_all vs F) r ch Lb (lay_wf _ _ _ Lt Wf) Hn Hch (allows_add _ _ _ _ Ha)) as [vs2 [ch2 [S2 [Sv2 Hc2]]]].
  exists (vs ++ vs2), ch2. split; [|split; auto].
  - eapply st_one; eauto. rewrite <- add_all_app. exact S2.
  - apply Forall2_app; auto.
Qed.

Lemma chars_app a b : chars (a ++ b) = chars a ++ chars b.
Proof. unfold chars. apply map_app. Qed.
Lemma lay_split s rest c k : lay (chars s ++ rest) c k -> exists d, spells s c d /\ lay rest d k.
Proof. intros H. apply lay_app in H. destruct H as [d [H1 H2]]. apply lay_chars in H1. eauto. Qed.

Lemma trail_nobar e cs t (nb : Prop) k k2 : ended e true cs t -> lay t k k2 -> nobar k2 -> ends e true k.
Proof. intros. eapply ended_ends; eauto. Qed.

Lemma ends_nothing e cm k : ends e cm k -> ([] : text) = [] -> ch_in no_more (peek k) = false.
Proof. intros. eapply ends_no_more; eauto. Qed.

Lemma pattern_rest e c s : written_pattern e c s -> s = [] -> e = false.
Proof. destruct 1; auto. discriminate. Qed.

Lemma hash_none l c d : lead l -> spells l c d -> text_eqb (peekn 2 d) (T "#!") = false -> text_eqb (peekn 2 c) (T "#!") = false.
Proof.
  intros Hl Sp Hd. destruct l as [|x l]; [apply spells_nil in Sp; subst; auto|].
  assert (Hx : x <> C "#"). { unfold lead in Hl. cbn [forallb] in Hl. apply andb_true_iff in Hl. destruct Hl as [Hl _]. intros ->. discriminate. }
  exact (hash_lead [] c c x eq_refl eq_refl ltac:(apply spells_head in Sp; destruct Sp as [? [? [-> _]]]; reflexivity) Hx).
Qed.
Lemma lead_eof l c d : spells l c d -> is_eof d = false -> is_eof c = false.
Proof. destruct l; [intros H; apply spells_nil in H; subst; auto|]. intros H _. apply spells_head in H. destruct H as [? [? [-> _]]]. reflexivity. Qed.

Lemma heredoc_op c d k r0 y : spells (T "=<<") c d -> spells (r0 :: y) d k ->
  let s1 := peekn 1 c in
  let s2 := (let s := peekn 2 c in if text_eqb s (T "..") || text_eqb s (T "=<") then peekn 3 c else s) in
  ends_excmds1 (peek1 c) = false /\ s2 = T "=<<".
Proof.
  intros S1 S2 s1 s2. split; [apply spells_head in S1; destruct S1 as [? [? [-> _]]]; reflexivity|].
  unfold s2. pose proof (peekn_exact 3 (T "=<<") c d S1 eq_refl) as E3. rewrite E3. apply spells_head in S1. destruct S1 as [? [? [-> S1]]]. apply spells_head in S1. destruct S1 as [? [? [-> S1]]]. reflexivity.
Qed.

Lemma words_head ks m s : written_words ks m s -> exists r y, s = r :: y /\ iswordc r = true.
Proof.
  destruct 1 as [m [H1 H2] _|p y ks m w s [H1 H2] _ _ _].
  - destruct m as [|r y]; [congruence|]. exists r, y. split; auto. cbn [forallb] in H2. apply andb_true_iff in H2. tauto.
  - destruct y as [|r y]; [congruence|]. exists r, (y ++ w ++ s). split; auto. cbn [forallb] in H2. apply andb_true_iff in H2. tauto.
Qed.
Lemma words_marker ks m s : written_words ks m s -> m <> [].
Proof. induction 1 as [m [H _] _|]; auto. Qed.

Lemma catch_eq k st : parse_cmd_catch k st =
  let* f := top_frame st in
  match f_kind f with
  | FFinally => raise (T "E604: :catch after :finally") (cmdpos k)
  | FTry _ _ | FCatch _ =>
    let* st1 := (if is_try (f_kind f) then Ok st else pop_part st) in
    let* '(pat, c1) := catch_arg (skip_white (cur st1)) in
    Ok (push_context (FCatch pat) (cmdpos k) (ec_ea k) (with_cur c1 st1))
  | _ => raise (T "E603: :catch without :try") (cmdpos k)
  end.
Proof. reflexivity. Qed.

(** The head of a line kept as text. *)
Lemma head_line_back x a l tl nm bang white opts rest c fr ch :
  lead l -> head_line nv x (ast_head a) tl nm bang white opts rest -> ~ begins (T "#!") (l ++ tl ++ nm ++ bang ++ white ++ opts ++ rest) ->
  ae_cmd a = Some x -> placed_head a -> rest_of c (l ++ tl ++ nm ++ bang ++ white ++ opts ++ rest) -> wf c -> cache_ok nv ch ->
  exists a1 b d k e ch', spells (l ++ tl ++ nm ++ bang ++ white ++ opts) c k /\ spells (tl ++ nm ++ bang ++ white ++ opts) a1 k /\ rest_of k rest /\ wf k /\
    is_eof c = false /\ same_head e a /\ ea_usefilter e = ae_usefilter a /\ (c_name x = T "redir" -> d = k) /\ cache_ok nv ch' /\
    parse_one_cmd nv (mkSt c fr ch) = let* st2 := dispatch (mkEc e a1 b d x) (mkSt k fr ch') in parse_trail st2.
Proof.
  intros Hl Hh Hhash Hx Hp Rc Wc Hch. pose proof Hh as [HT Hres Hdig Hfirst].
  assert (Hbl : starts_with blank_colon (tl ++ nm ++ bang ++ white ++ opts ++ rest) = false).
  { rewrite app_assoc. destruct (tl ++ nm) as [|y z] eqn:Ey; [|exact Hfirst].
    apply app_eq_nil in Ey. destruct Ey as [-> ->]. cbn [app]. destruct (resolves_starts _ _ _ _ Hres) as [r0 [u0 [E0 Hs0]]]. cbn [app] in E0. rewrite E0. cbn [starts_with]. apply sign_not_blank; auto. }
  destruct (head_back nv x (ast_head a) l tl nm bang white opts rest c fr ch Hl HT Hres Hdig Rc Wc Hch Hbl Hhash)
    as [a1 [b [d [k [e [ch' [S1 [S2 [S3 [S4 [R4 [He [K1 [K2 [K3 [K4 [K5 [K6 K7]]]]]]]]]]]]]]]]]].
  exists a1, b, d, k, e, ch'.
  assert (S5 : spells (tl ++ nm ++ bang ++ white ++ opts) a1 k).
  { eapply spells_app; [exact S2|]. replace (nm ++ bang ++ white ++ opts) with ((nm ++ bang ++ white) ++ opts) by (rewrite <- !app_assoc; reflexivity). eapply spells_app; eauto. }
  assert (S6 : spells (l ++ tl ++ nm ++ bang ++ white ++ opts) c k) by (eapply spells_app; eauto).
  split; [exact S6|]. split; [exact S5|]. split; [exact R4|]. split; [wfs|]. split; [exact He|]. split.
  { apply (head_same e a x); auto; congruence. }
  split. { unfold head_of, ast_head in K1. injection K1. auto. }
  split. { intros Er. rewrite (redir_opts _ _ _ _ _ _ _ _ _ Er HT Hres) in S4. apply spells_nil in S4. auto. }
  split; auto.
Qed.
(** A line with modifiers or a range only. *)
Lemma bare_class r : lead_class r = true -> one_of (T """|") r = false.
Proof. unfold lead_class, one_of, isalpha, isdigit, iswhite, isupper, islower, between. cbn. lia. Qed.
Lemma bare_hash r : lead_class r = true -> (r =? C "#") = false.
Proof. unfold lead_class, one_of, isalpha, isdigit, iswhite, isupper, islower, between. cbn. lia. Qed.
Lemma bare_line_back h l tl z c fr ch :
  lead l -> tl <> [] -> bare_line tl h z -> rest_of c (l ++ tl ++ z) -> wf c ->
  exists a b e, spells (l ++ tl) c b /\ is_eof c = false /\ e = ea_set_cmdpos (getpos b) (ea_set_range (hf_range h) (ea_set_mods (hf_modifiers h) (ea_set_line (getpos a) ea0))) /\
    parse_one_cmd nv (mkSt c fr ch) =
      let* st2 := (if is_nil (hf_modifiers h) && is_nil (hf_range h) then Ok (mkSt b fr ch) else add_node (VExcmd (getpos b) e tl) (mkSt b fr ch)) in parse_trail st2.
Proof.
  intros Hl Hne [Hlead [Hz Hfirst]] Rc Wc.
  assert (Hb0 : starts_with blank_colon (tl ++ z) = false) by (destruct tl; [congruence|exact Hfirst]).
  destruct (line_back nv h l tl z c fr ch) as [a [b [c1 [S1 [S2 [R2 [He [Eb E1]]]]]]]]; auto.
  { destruct Hz as [->|[u ->]]; reflexivity. }
  { eapply lead_first2; eauto. exact bare_class. }
  { destruct tl; [congruence|discriminate]. }
  { apply no_hash; auto. eapply lead_first2; eauto. exact bare_hash. }
  eexists a, b, _. split; [eapply spells_app; eauto|]. split; [exact He|]. split; [reflexivity|]. cbv zeta in E1. rewrite E1. f_equal.
  unfold parse_command. cbn [cur]. rewrite <- Eb. unfold with_cur. cbn [ctx cache]. rewrite (peek1_rest _ _ R2).
  unfold parse_cmd_modifier_range. cbn [cur]. rewrite (spells_getstr _ _ _ S2).
  destruct Hz as [->|[u ->]]; reflexivity.
Qed.

Lemma blocks_all : (forall w e cm n u, block_cmd nv w e cm n u -> cmd_read w e cm n u) /\
  (forall w ns s, blocks nv w ns s -> blocks_read w ns s) /\
  (forall w es el s, if_parts nv w es el s -> if_read w es el s) /\
  (forall w es fi s, try_parts nv w es fi s -> try_read w es fi s).
Proof.
  apply (written_script_mutind nv (fun w e cm n u _ => cmd_read w e cm n u) (fun w ns s _ => blocks_read w ns s)
    (fun w es el s _ => if_read w es el s) (fun w es fi s _ => try_read w es fi s)).
  - (* one line *) intros w e cm n s H l c c0 k f r ch Hl Sl Lu Wf He Hch Ha. apply lay_chars in Lu.
    destruct (read_line_cmd nv w e cm n s l c c0 k f r ch H Hl Sl Lu Wf He Hch Ha) as [v [ch' [H1 [H2 [H3 H4]]]]].
    exists (mkSt c (f :: r) ch), v, ch'. split; [constructor|]. auto.
  - (* if *) intros w e a h cn sc cs t b sb es el se l2 a2 h2 p q Hc Hcn Hen Hb IHb Hp IHp Hl2 Hc2 l c c0 k f r ch Hl Sl Lu Wf He Hch Ha.
    rewrite chars_app, <- app_assoc in Lu. apply lay_split in Lu. destruct Lu as [d [Sh Lu]]. apply lay_split in Lu. destruct Lu as [k1 [Sc Lu]].
    apply lay_app in Lu. destruct Lu as [k2 [Lt Lu]]. apply lay_app in Lu. destruct Lu as [k3 [Lb Lu]]. apply lay_app in Lu. destruct Lu as [k4 [Lp Lu]].
    pose proof Lu as Le. rewrite chars_app in Lu. apply lay_split in Lu. destruct Lu as [c2 [Sl2 Lu]]. apply lay_chars in Lu.
    assert (Hn4 : nobar k4). { apply (cmd_nobar nv _ _ _ _ l2 [] k4 k Hl2 Hc2); [inp|]. rewrite app_nil_r. exact Le. }
    assert (Hn3 : nobar k3) by (eapply if_parts_nobar; eauto). assert (Hn2 : nobar k2) by (eapply blocks_nobar; eauto).
    pose proof (trail_nobar _ _ _ True _ _ Hen Lt Hn2) as Hends. pose proof (written_head _ _ _ _ Hcn) as Hg.
    assert (W0 : wf c0) by (eapply spells_wf; eauto). assert (Wd : wf d) by (eapply spells_wf; eauto). assert (W1 : wf k1) by (eapply spells_wf; eauto).
    assert (W2 : wf k2) by (eapply lay_wf; eauto). assert (W3 : wf k3) by (eapply lay_wf; eauto). assert (W4 : wf k4) by (eapply lay_wf; eauto).
    destruct (head_step nv _ sc a h l c c0 d k1 (f :: r) ch Hl Sl Hc ltac:(inp) Sh Sc ltac:(intros ->; destruct Hg as [? [? [Hg _]]]; discriminate) Hch ltac:(wfs))
      as [e0 [x0 [line [cmdc [arg [ch1 [H1 [H2 [H3 [H4 [H5 [H6 H7]]]]]]]]]]]].
    rewrite (dispatch_is (T "parse_cmd_if") parse_cmd_if (mkEc e0 line cmdc arg x0) _ H1 eq_refl), (head_still sc d k1 Hg Sc) in H7.
    destruct (read_expr e cn sc [] d k1 Hcn eq_refl Sc Wd (ends_stop _ _ _ _ Hends W1)) as [v [Ev Sv]].
    unfold parse_cmd_if in H7. cbn [cur] in H7. rewrite Ev in H7. cbn [bind] in H7. unfold push_context, with_ctx, with_cur in H7. cbn [cur ctx cache cmdpos ec_cmd ec_ea] in H7.
    destruct (open_run (in_block w) cs t b sb (mkSt c (f :: r) ch) k1 k1 k2 k3 _ (f :: r) ch1 e H6 H7 eq_refl Hen Lt Lb IHb W1 Hn3 H5 ltac:(apply allows_block; [discriminate|exact Ha])) as [vs [ch2 [S2 [Sv2 C2]]]].
    unfold add_all in S2. cbn [f_kind f_pos f_ea f_body app] in S2.
    destruct (IHp k3 k4 (mkFrame (FIf v [] None) (getpos cmdc) e0 vs :: f :: r) v [] (getpos cmdc) e0 vs (f :: r) ch2 Lp W3 Hn4 C2 Ha (conj eq_refl (or_introl eq_refl))) as [fr' [es' [el' [ch3 [S3 [O3 [Ses [Sel C3]]]]]]]].
    destruct (head_step nv _ [] a2 h2 l2 k4 c2 k k fr' ch3 Hl2 Sl2 Hc2 ltac:(inp) Lu eq_refl (ends_nothing _ _ _ He) C3 ltac:(wfs))
      as [e4 [x4 [line4 [cmdc4 [arg4 [ch4 [G1 [G2 [G3 [G4 [G5 [G6 G7]]]]]]]]]]]].
    rewrite (dispatch_is (T "parse_cmd_endif") parse_cmd_endif (mkEc e4 line4 cmdc4 arg4 x4) _ G1 eq_refl) in G7.
    destruct (open_if_close _ _ _ _ (skip_white k) ch4 O3) as [f1 [T1 [T2 [_ T3]]]].
    unfold parse_cmd_endif in G7. rewrite T1 in G7. cbn [bind] in G7. rewrite T2 in G7. cbn [negb] in G7. rewrite T3 in G7. cbn [bind] in G7. 
    exists (mkSt k4 fr' ch3), (VIf (getpos cmdc) e0 vs v es' el' (Some (VEndif (getpos cmdc4) e4))), ch4. split; [eapply steps_trans; [exact S2|exact S3]|]. split; [exact G6|].
    split; [rewrite G7; apply (trail_skip (skip_white k) k), skip_white_idem|]. split; [|exact G5].
    apply ss_if; auto. apply sk_endif; auto.
  - (* while *) intros w e a h cn sc cs t b sb l2 a2 h2 p q Hc Hcn Hen Hb IHb Hl2 Hc2 l c c0 k f r ch Hl Sl Lu Wf He Hch Ha.
    rewrite chars_app, <- app_assoc in Lu. apply lay_split in Lu. destruct Lu as [d [Sh Lu]]. apply lay_split in Lu. destruct Lu as [k1 [Sc Lu]].
    apply lay_app in Lu. destruct Lu as [k2 [Lt Lu]]. apply lay_app in Lu. destruct Lu as [k3 [Lb Lu]].
    pose proof Lu as Le. rewrite chars_app in Lu. apply lay_split in Lu. destruct Lu as [c2 [Sl2 Lu]]. apply lay_chars in Lu.
    assert (Hn3 : nobar k3). { apply (cmd_nobar nv _ _ _ _ l2 [] k3 k Hl2 Hc2); [inp|]. rewrite app_nil_r. exact Le. }
    assert (Hn2 : nobar k2) by (eapply blocks_nobar; eauto).
    pose proof (trail_nobar _ _ _ True _ _ Hen Lt Hn2) as Hends. pose proof (written_head _ _ _ _ Hcn) as Hg.
    assert (W0 : wf c0) by (eapply spells_wf; eauto). assert (Wd : wf d) by (eapply spells_wf; eauto). assert (W1 : wf k1) by (eapply spells_wf; eauto).
    destruct (head_step nv _ sc a h l c c0 d k1 (f :: r) ch Hl Sl Hc ltac:(inp) Sh Sc ltac:(intros ->; destruct Hg as [? [? [Hg _]]]; discriminate) Hch ltac:(wfs))
      as [e0 [x0 [line [cmdc [arg [ch1 [H1 [H2 [H3 [H4 [H5 [H6 H7]]]]]]]]]]]].
    rewrite (dispatch_is (T "parse_cmd_while") parse_cmd_while (mkEc e0 line cmdc arg x0) _ H1 eq_refl), (head_still sc d k1 Hg Sc) in H7.
    destruct (read_expr e cn sc [] d k1 Hcn eq_refl Sc Wd (ends_stop _ _ _ _ Hends W1)) as [v [Ev Sv]].
    unfold parse_cmd_while in H7. cbn [cur] in H7. rewrite Ev in H7. cbn [bind] in H7. unfold push_context, with_ctx, with_cur in H7. cbn [cur ctx cache cmdpos ec_cmd ec_ea] in H7.
    destruct (open_run (in_loop w) cs t b sb (mkSt c (f :: r) ch) k1 k1 k2 k3 _ (f :: r) ch1 e H6 H7 eq_refl Hen Lt Lb IHb W1 Hn3 H5 ltac:(apply allows_loop; auto)) as [vs [ch2 [S2 [Sv2 C2]]]].
    unfold add_all in S2. cbn [f_kind f_pos f_ea f_body app] in S2.
    destruct (head_step nv _ [] a2 h2 l2 k3 c2 k k (mkFrame (FWhile v) (getpos cmdc) e0 vs :: f :: r) ch2 Hl2 Sl2 Hc2 ltac:(inp) Lu eq_refl (ends_nothing _ _ _ He) C2 ltac:(wfs))
      as [e4 [x4 [line4 [cmdc4 [arg4 [ch4 [G1 [G2 [G3 [G4 [G5 [G6 G7]]]]]]]]]]]].
    rewrite (dispatch_is (T "parse_cmd_endwhile") parse_cmd_endwhile (mkEc e4 line4 cmdc4 arg4 x4) _ G1 eq_refl) in G7.
    exists (mkSt k3 (mkFrame (FWhile v) (getpos cmdc) e0 vs :: f :: r) ch2), (VWhile (getpos cmdc) e0 vs v (Some (VEndwhile (getpos cmdc4) e4))), ch4. split; [exact S2|]. split; [exact G6|]. split.
    { rewrite G7. apply (trail_skip (skip_white k) k), skip_white_idem. }
    split; [|exact G5]. apply ss_while; auto. apply sk_endwhile; auto.
  - (* for *) intros w e a h x xs rr sx w1 w2 cn sc cs t b sb l2 a2 h2 p q Hc Hlh Hw1 Hw2 Hcn Hin Hen Hb IHb Hl2 Hc2 l c c0 k f r ch Hl Sl Lu Wf He Hch Ha.
    rewrite !chars_app, <- !app_assoc in Lu. apply lay_split in Lu. destruct Lu as [d [Sh Lu]]. apply lay_split in Lu. destruct Lu as [d1 [Sx Lu]].
    apply lay_split in Lu. destruct Lu as [d2 [Sw1 Lu]]. apply lay_split in Lu. destruct Lu as [d3 [Sin Lu]]. apply lay_split in Lu. destruct Lu as [d4 [Sw2 Lu]].
    apply lay_split in Lu. destruct Lu as [k1 [Sc Lu]].
    apply lay_app in Lu. destruct Lu as [k2 [Lt Lu]]. apply lay_app in Lu. destruct Lu as [k3 [Lb Lu]].
    pose proof Lu as Le. apply lay_split in Lu. destruct Lu as [c2 [Sl2 Lu]]. apply lay_chars in Lu.
    assert (Hn3 : nobar k3). { apply (cmd_nobar nv _ _ _ _ l2 [] k3 k Hl2 Hc2); [inp|]. rewrite app_nil_r, chars_app. exact Le. }
    assert (Hn2 : nobar k2) by (eapply blocks_nobar; eauto).
    pose proof (trail_nobar _ _ _ True _ _ Hen Lt Hn2) as Hends. pose proof (written_head _ _ _ _ Hcn) as Hg.
    destruct (lhs_head _ _ _ _ _ _ _ Hlh) as [x1 [y1 [El [Hx1 Hx2]]]]. assert (Hgl : good_head sx) by (exists x1, y1; auto).
    assert (W0 : wf c0) by (eapply spells_wf; eauto). assert (Wd : wf d) by (eapply spells_wf; eauto). assert (Wd1 : wf d1) by (eapply spells_wf; eauto).
    assert (Wd2 : wf d2) by (eapply spells_wf; eauto). assert (Wd3 : wf d3) by (eapply spells_wf; eauto). assert (Wd4 : wf d4) by (eapply spells_wf; eauto). assert (W1 : wf k1) by (eapply spells_wf; eauto).
    destruct (head_step nv _ sx a h l c c0 d d1 (f :: r) ch Hl Sl Hc ltac:(inp) Sh Sx ltac:(intros ->; destruct Hgl as [? [? [Hgl _]]]; discriminate) Hch ltac:(wfs))
      as [e0 [x0 [line [cmdc [arg [ch1 [H1 [H2 [H3 [H4 [H5 [H6 H7]]]]]]]]]]]].
    rewrite (dispatch_is (T "parse_cmd_for") parse_cmd_for (mkEc e0 line cmdc arg x0) _ H1 eq_refl), (head_still sx d d1 Hgl Sx) in H7.
    destruct (read_lhs variable parse_lvalue w1 (T "in") x xs rr sx d d1 d3) as [l' [ls' [r' [El' [Sl1 [Sl3 Sl4]]]]]]; auto.
    { intros nn ss cc kk Z1 Z2 Z3 Z4 Z5. exact (read_lvalue nn ss [] cc kk Z1 Z2 eq_refl Z3 Z4 Z5). }
    { left. reflexivity. }
    { apply (Cursor.spells_app w1 (T "in") d1 d2 d3); auto. }
    assert (Hsk : skip_white d1 = d2). { apply (skip_gap w1); auto. clear - Sin. apply spells_head in Sin. destruct Sin as [? [? [-> _]]]. reflexivity. }
    assert (Sc' : spells (w2 ++ sc) d3 k1) by (apply (Cursor.spells_app w2 sc d3 d4 k1); auto).
    assert (Hal : ch_in isalpha (peek d3) = false).
    { apply (gap_class isalpha [] (w2 ++ sc) d3 k1); auto using white_not_alpha; [reflexivity|]. destruct Hg as [? [? [-> _]]]. destruct w2; discriminate. }
    destruct (read_expr e cn sc w2 d3 k1 Hcn Hw2 Sc' Wd3 (ends_stop _ _ _ _ Hends W1)) as [v [Ev Sv]].
    unfold parse_cmd_for in H7. cbn [cur] in H7. rewrite El' in H7. cbn [bind] in H7. rewrite Hsk in H7. unfold read_alpha in H7. rewrite (read_while_exact isalpha (T "in") d2 d3 Sin eq_refl Hal) in H7.
    change (negb (text_eqb (T "in") (T "in"))) with false in H7. cbn match in H7. rewrite Ev in H7. cbn [bind] in H7. unfold push_context, with_ctx, with_cur in H7. cbn [cur ctx cache cmdpos ec_cmd ec_ea] in H7.
    destruct (open_run (in_loop w) cs t b sb (mkSt c (f :: r) ch) k1 k1 k2 k3 _ (f :: r) ch1 e H6 H7 eq_refl Hen Lt Lb IHb W1 Hn3 H5 ltac:(apply allows_loop; auto)) as [vs [ch2 [S2 [Sv2 C2]]]].
    unfold add_all in S2. cbn [f_kind f_pos f_ea f_body app] in S2.
    destruct (head_step nv _ [] a2 h2 l2 k3 c2 k k (mkFrame (FFor l' ls' r' v) (getpos cmdc) e0 vs :: f :: r) ch2 Hl2 Sl2 Hc2 ltac:(inp) Lu eq_refl (ends_nothing _ _ _ He) C2 ltac:(wfs))
      as [e4 [x4 [line4 [cmdc4 [arg4 [ch4 [G1 [G2 [G3 [G4 [G5 [G6 G7]]]]]]]]]]]].
    rewrite (dispatch_is (T "parse_cmd_endfor") parse_cmd_endfor (mkEc e4 line4 cmdc4 arg4 x4) _ G1 eq_refl) in G7.
    exists (mkSt k3 (mkFrame (FFor l' ls' r' v) (getpos cmdc) e0 vs :: f :: r) ch2), (VFor (getpos cmdc) e0 vs l' ls' r' v (Some (VEndfor (getpos cmdc4) e4))), ch4. split; [exact S2|]. split; [exact G6|]. split.
    { rewrite G7. apply (trail_skip (skip_white k) k), skip_white_idem. }
    split; [|exact G5]. apply ss_for; auto. apply sk_endfor; auto.
  - (* try *) intros w a h cs t b sb es fi se l2 a2 h2 p q Hc Hen Hb IHb Hp IHp Hl2 Hc2 l c c0 k f r ch Hl Sl Lu Wf He Hch Ha.
    apply lay_split in Lu. destruct Lu as [k1 [Sh Lu]].
    apply lay_app in Lu. destruct Lu as [k2 [Lt Lu]]. apply lay_app in Lu. destruct Lu as [k3 [Lb Lu]]. apply lay_app in Lu. destruct Lu as [k4 [Lp Lu]].
    pose proof Lu as Le. rewrite chars_app in Lu. apply lay_split in Lu. destruct Lu as [c2 [Sl2 Lu]]. apply lay_chars in Lu.
    assert (Hn4 : nobar k4). { apply (cmd_nobar nv _ _ _ _ l2 [] k4 k Hl2 Hc2); [inp|]. rewrite app_nil_r. exact Le. }
    assert (Hn3 : nobar k3) by (eapply try_parts_nobar; eauto). assert (Hn2 : nobar k2) by (eapply blocks_nobar; eauto).
    pose proof (trail_nobar _ _ _ True _ _ Hen Lt Hn2) as Hends.
    assert (W0 : wf c0) by (eapply spells_wf; eauto). assert (W1 : wf k1) by (eapply spells_wf; eauto).
    assert (W2 : wf k2) by (eapply lay_wf; eauto). assert (W3 : wf k3) by (eapply lay_wf; eauto). assert (W4 : wf k4) by (eapply lay_wf; eauto).
    destruct (head_step nv _ [] a h l c c0 k1 k1 (f :: r) ch Hl Sl Hc ltac:(inp) Sh eq_refl (ends_nothing _ _ _ Hends) Hch ltac:(wfs))
      as [e0 [x0 [line [cmdc [arg [ch1 [H1 [H2 [H3 [H4 [H5 [H6 H7]]]]]]]]]]]].
    rewrite (dispatch_is (T "parse_cmd_try") parse_cmd_try (mkEc e0 line cmdc arg x0) _ H1 eq_refl) in H7.
    unfold parse_cmd_try in H7. cbn [bind] in H7. unfold push_context, with_ctx, with_cur in H7. cbn [cur ctx cache cmdpos ec_cmd ec_ea] in H7.
    destruct (open_run (in_block w) cs t b sb (mkSt c (f :: r) ch) k1 (skip_white k1) k2 k3 _ (f :: r) ch1 false H6 H7 (skip_white_idem _) Hen Lt Lb IHb W1 Hn3 H5 ltac:(apply allows_block; [discriminate|exact Ha])) as [vs [ch2 [S2 [Sv2 C2]]]].
    unfold add_all in S2. cbn [f_kind f_pos f_ea f_body app] in S2.
    destruct (IHp k3 k4 (mkFrame (FTry [] None) (getpos cmdc) e0 vs :: f :: r) [] (getpos cmdc) e0 vs (f :: r) ch2 Lp W3 Hn4 C2 Ha (conj eq_refl (or_introl eq_refl))) as [fr' [es' [fi' [ch3 [S3 [O3 [Ses [Sel C3]]]]]]]].
    destruct (head_step nv _ [] a2 h2 l2 k4 c2 k k fr' ch3 Hl2 Sl2 Hc2 ltac:(inp) Lu eq_refl (ends_nothing _ _ _ He) C3 ltac:(wfs))
      as [e4 [x4 [line4 [cmdc4 [arg4 [ch4 [G1 [G2 [G3 [G4 [G5 [G6 G7]]]]]]]]]]]].
    rewrite (dispatch_is (T "parse_cmd_endtry") parse_cmd_endtry (mkEc e4 line4 cmdc4 arg4 x4) _ G1 eq_refl) in G7.
    destruct (open_try_close _ _ _ _ (skip_white k) ch4 O3) as [f1 [T1 [T2 [_ T3]]]].
    unfold parse_cmd_endtry in G7. rewrite T1 in G7. cbn [bind] in G7. rewrite T2 in G7. cbn [negb] in G7. rewrite T3 in G7. cbn [bind] in G7. 
    exists (mkSt k4 fr' ch3), (VTry (getpos cmdc) e0 vs es' fi' (Some (VEndtry (getpos cmdc4) e4))), ch4. split; [eapply steps_trans; [exact S2|exact S3]|]. split; [exact G6|].
    split; [rewrite G7; apply (trail_skip (skip_white k) k), skip_white_idem|]. split; [|exact G5].
    apply ss_try; auto. apply sk_endtry; auto.
  - (* function *) intros w a h n sn w1 ps ds sp at_ sa cs t b sb l2 a2 h2 u p q Hc Hn Hfn Hw1 Hps Hat Hen Hb IHb Hl2 Hc2 l c c0 k f r ch Hl Sl Lu Wf He Hch Ha.
    rewrite !chars_app, <- !app_assoc in Lu. apply lay_split in Lu. destruct Lu as [d [Sh Lu]]. apply lay_split in Lu. destruct Lu as [d1 [Sn Lu]].
    apply lay_split in Lu. destruct Lu as [d2 [Sw1 Lu]]. apply lay_split in Lu. destruct Lu as [d3 [So Lu]]. apply lay_split in Lu. destruct Lu as [d4 [Sps Lu]].
    apply lay_split in Lu. destruct Lu as [k1 [Sa Lu]].
    apply lay_app in Lu. destruct Lu as [k2 [Lt Lu]]. apply lay_app in Lu. destruct Lu as [k3 [Lb Lu]].
    pose proof Lu as Le. apply lay_split in Lu. destruct Lu as [c2 [Sl2 Lu]]. apply lay_split in Lu. destruct Lu as [c3 [Sh2 Lu]]. apply lay_chars in Lu.
    assert (Hn3 : nobar k3). { apply (cmd_nobar nv _ _ _ _ l2 (chars u) k3 k Hl2 Hc2); [inp|]. rewrite chars_app, <- app_assoc. exact Le. }
    assert (Hn2 : nobar k2) by (eapply blocks_nobar; eauto).
    pose proof (trail_nobar _ _ _ True _ _ Hen Lt Hn2) as Hends. pose proof (target_head _ _ Hn) as Hth. pose proof (head_good _ Hth) as Hg.
    assert (W0 : wf c0) by (eapply spells_wf; eauto). assert (Wd : wf d) by (eapply spells_wf; eauto). assert (Wd1 : wf d1) by (eapply spells_wf; eauto).
    assert (Wd2 : wf d2) by (eapply spells_wf; eauto). assert (Wd3 : wf d3) by (eapply spells_wf; eauto). assert (Wd4 : wf d4) by (eapply spells_wf; eauto). assert (W1 : wf k1) by (eapply spells_wf; eauto).
    destruct (head_step nv _ sn a h l c c0 d d1 (f :: r) ch Hl Sl Hc ltac:(inp) Sh Sn ltac:(intros ->; destruct Hg as [? [? [Hg _]]]; discriminate) Hch ltac:(wfs))
      as [e0 [x0 [line [cmdc [arg [ch1 [H1 [H2 [H3 [H4 [H5 [H6 H7]]]]]]]]]]]].
    rewrite (dispatch_is (T "parse_cmd_function") parse_cmd_function (mkEc e0 line cmdc arg x0) _ H1 eq_refl), (head_still sn d d1 Hg Sn) in H7.
    assert (So' : spells (w1 ++ T "(") d1 d3) by (apply (Cursor.spells_app w1 (T "(") d1 d2 d3); auto).
    destruct (lpunct n (C "(") KPOpen w1 d1 d3 eq_refl eq_refl ltac:(discriminate) ltac:(cbn; auto) Hw1 So') as [Hls _].
    assert (Hns : forall x y u v, n <> NSlice x y u v) by (intros ? ? ? ? ->; exact Hfn).
    destruct (read_lvalue_func n sn [] d d1 Hn Hns eq_refl Sn Wd Hls) as [v [Ev Sv]].
    assert (Hsk : skip_white d1 = d2). { apply (skip_gap w1); auto. clear - So. apply spells_head in So. destruct So as [? [? [-> _]]]. reflexivity. }
    assert (Hname : (match v with VIdent p s => let* bad := bad_function_name s in if bad : bool then raise (T "E128: Function name must start with a capital or contain a colon: " ++ s) p else Ok tt | _ => Ok tt end) = Ok tt) by (eapply function_name; eauto).
    destruct (read_fparams _ _ _ _ _ Hps d3 d4 (S (clen d3)) Sps Wd3 (Nat.lt_succ_diag_r _)) as [Q1 Q2].
    assert (Hpar : exists t0 c5 vs ds', tget d3 = Ok (t0, c5) /\ (if tok_eqb (tk t0) KPClose then Ok ([], [], c5) else params_loop (S (clen d3)) [] false d3) = Ok (vs, ds', d4) /\ Forall2 same_name vs ps /\ Forall2 shows ds' ds).
    { destruct ps as [|p1 ps].
      - destruct (Q1 eq_refl) as [-> [q1 Ht]]. exists (mkTok KPClose (T ")") q1), d4, [], []. split; [exact Ht|]. split; [reflexivity|]. split; constructor.
      - destruct (Q2 ltac:(discriminate)) as [[t0 [c5 [Ht Hk]]] [vs [ds' [E [F1 F2]]]]]. exists t0, c5, vs, ds'. rewrite Hk. auto. }
    destruct Hpar as [t0 [c5 [pvs [pds [Ht0 [Epar [Spv Spd]]]]]]].
    pose proof (read_attrs _ _ _ Hat d4 k1 (S (clen d4)) Sa (Nat.lt_succ_diag_r _) Hends) as Eat.
    assert (Hrun : parse_cmd_function (mkEc e0 line cmdc arg x0) (mkSt d (f :: r) ch1) = Ok (mkSt (skip_white k1) (mkFrame (FFunction v pvs pds at_) (getpos cmdc) e0 [] :: f :: r) ch1)).
    { unfold parse_cmd_function. cbn [cur]. rewrite (head_still sn d d1 Hg Sn).
      destruct Hth as [r0 [y0 [Esn [Hr0 [Hr1 _]]]]]. 
      destruct (read_target n sn [] d d1 Hn eq_refl Sn Wd Hls) as [_ [tf [df [Tf Lf]]]].
      assert (Hpk : ends_excmds (peek d) = false /\ o_is (peek1 d) (C "/") = false).
      { subst sn. apply spells_head in Sn. destruct Sn as [? [? [-> _]]]. cbn [peek ch_of_cell peek1 o_is]. rewrite head_not_end by auto. split; [clear - Hr1; cbn in *; lia|].
        destruct (r0 =? C "/") eqn:E; auto. apply N.eqb_eq in E. subst r0. exfalso. vm_compute in Tf. injection Tf as <- <-. discriminate Lf. }
      destruct Hpk as [-> ->]. rewrite Ev. cbn [bind]. rewrite Hsk, Hname. cbn [bind].
      pose proof (getn_exact 1 (T "(") d2 d3 So eq_refl) as Hgo. rewrite Hgo.
      replace (o_is (peek1 d2) (C "(")) with true. 2: { clear - So. apply spells_head in So. destruct So as [? [? [-> _]]]. reflexivity. }
      cbn [negb snd]. rewrite Ht0. cbn [bind]. rewrite Epar. cbn [bind]. rewrite Eat. reflexivity. }
    rewrite Hrun in H7. cbn [bind] in H7.
    destruct (open_run (in_function w) cs t b sb (mkSt c (f :: r) ch) k1 (skip_white k1) k2 k3 _ (f :: r) ch1 false H6 H7 (skip_white_idem _) Hen Lt Lb IHb W1 Hn3 H5 ltac:(apply allows_function; auto)) as [vs [ch2 [S2 [Sv2 C2]]]].
    unfold add_all in S2. cbn [f_kind f_pos f_ea f_body app] in S2.
    assert (Hk : exists p t, k = Cons EOL p t).
    { destruct He as [w0 [d0 [Hw0 [Sp0 [He0 [[p0 [t1 ->]]|[[E _]|[E _]]]]]]]]; try discriminate. rewrite (He0 eq_refl) in Sp0. apply spells_nil in Sp0. eauto. }
    destruct Hk as [pk [tk' ->]].
    destruct (head_step nv _ u a2 h2 l2 k3 c2 c3 _ (mkFrame (FFunction v pvs pds at_) (getpos cmdc) e0 vs :: f :: r) ch2 Hl2 Sl2 Hc2 ltac:(inp) Sh2 Lu ltac:(reflexivity) C2 ltac:(wfs))
      as [e4 [x4 [line4 [cmdc4 [arg4 [ch4 [G1 [G2 [G3 [G4 [G5 [G6 G7]]]]]]]]]]]].
    rewrite (dispatch_is (T "parse_cmd_endfunction") parse_cmd_endfunction (mkEc e4 line4 cmdc4 arg4 x4) _ G1 eq_refl) in G7.
    exists (mkSt k3 (mkFrame (FFunction v pvs pds at_) (getpos cmdc) e0 vs :: f :: r) ch2), (VFunction (getpos cmdc) e0 vs v pvs pds at_ (Some (VEndfunction (getpos cmdc4) e4))), ch4.
    split; [exact S2|]. split; [exact G6|]. split.
    { rewrite G7. assert (Eall : snd (getn_all (skip_white c3)) = Cons EOL pk tk').
      { destruct (blank_skip c3) as [wz [Sz _]]. destruct (spells_two _ _ _ _ _ Lu Sz) as [[a' [Ea Sa']]|[b' [Eb Sb]]].
        - rewrite (getn_all_exact _ _ _ _ Sa'). reflexivity.
        - destruct b' as [|z b']; [apply spells_nil in Sb; rewrite <- Sb; reflexivity|]. apply spells_head in Sb. destruct Sb as [? [? [Sb _]]]. discriminate. }
      unfold parse_cmd_endfunction, top_frame, check_missing_if_try_loops. cbn [ctx cur f_kind is_if_part is_try_part is_while is_for is_function negb bind].
      rewrite Eall. reflexivity. }
    split; [|exact G5]. apply ss_function; auto. apply sk_endfunction; auto.
  - (* no statement *) intros w c k f r ch L Wf Hn Hch Ha. cbn in L. subst k. exists [], ch. rewrite add_none. split; [constructor|]. auto.
  - (* blank line *) intros w l ns s Hl Hb IH c k f r ch L Wf Hn Hch Ha. apply lay_split in L. destruct L as [d [Sl L]]. apply lay_cons in L. destruct L as [p [t [-> L]]].
    assert (Wt : wf t). { apply (lay_wf (chars l ++ [EOL]) c); auto. apply lay_app. eexists. split; [apply lay_chars; exact Sl|]. cbn. auto. }
    destruct (IH t k f r ch L Wt Hn Hch Ha) as [vs [ch' [S [Sv Cc]]]]. exists vs, ch'. split; auto. eapply st_one; [| |exact S].
    + eapply lead_eof; eauto.
    + unfold parse_one_cmd. cbn [cur]. rewrite (hash_none l c _ Hl Sl eq_refl), (skip_lead l c _ Hl Sl), (skip_not (fun r => iswhite r || (r =? C ":"))) by reflexivity. reflexivity.
  - (* hashbang *) intros w l ns s Hb IH c k f r ch L Wf Hn Hch Ha. apply lay_split in L. destruct L as [d [Sl L]]. apply lay_cons in L. destruct L as [p [t [-> L]]].
    assert (Wt : wf t). { apply (lay_wf (chars (T "#!" ++ l) ++ [EOL]) c); auto. apply lay_app. eexists. split; [apply lay_chars; exact Sl|]. cbn. auto. }
    destruct (IH t k f r ch L Wt Hn Hch Ha) as [vs [ch' [S [Sv Cc]]]]. exists vs, ch'. split; auto. eapply st_one; [| |exact S].
    + eapply lead_eof; eauto.
    + unfold parse_one_cmd. cbn [cur]. rewrite (getn_all_exact _ _ _ _ Sl). cbn [app] in Sl. apply spells_head in Sl. destruct Sl as [? [? [-> Sl]]]. apply spells_head in Sl. destruct Sl as [? [? [-> Sl]]]. reflexivity.
  - (* comment *) intros w l p u ns s Hl Hb IH c k f r ch L Wf Hn Hch Ha. rewrite chars_app, <- app_assoc in L. apply lay_split in L. destruct L as [d [Sl L]]. cbn [chars map app] in L. apply lay_cons in L. destruct L as [p1 [d1 [-> L]]].
    change (map R u) with (chars u) in L. apply lay_split in L. destruct L as [d2 [Su L]]. apply lay_cons in L. destruct L as [p2 [t [-> L]]].
    assert (Wt : wf t). { apply (lay_wf (chars (l ++ C """" :: u) ++ [EOL]) c); auto. apply lay_app. exists (Cons EOL p2 t). split; [|cbn; auto]. rewrite chars_app. apply lay_app. eexists. split; [apply lay_chars; exact Sl|]. apply lay_chars. cbn. auto. }
    destruct (IH t k (add_all [VComment p1 u] f) r ch L Wt Hn Hch (allows_add _ _ _ _ Ha)) as [vs [ch' [S [Sv Cc]]]]. exists (VComment p1 u :: vs), ch'. split; [|split; auto].
    + eapply st_one; [eapply lead_eof; eauto| |rewrite add_all_app in S; exact S].
      unfold parse_one_cmd. cbn [cur]. rewrite (hash_lead l c _ (C """") Hl Sl eq_refl ltac:(discriminate)), (skip_lead l c _ Hl Sl), (skip_not (fun r => iswhite r || (r =? C ":"))) by reflexivity. cbn [peek1]. cbn match.
      exact (comment_read p1 u d1 p2 t f r ch Su).
    + constructor; auto. apply ss_comment.
  - (* command *) intros w l e cm n u cs t ns s Hl Hcmd IHc Hen Hb IH c k f r ch L Wf Hn Hch Ha. apply lay_split in L. destruct L as [c0 [Sl L]].
    apply lay_app in L. destruct L as [k1 [Lu L]]. apply lay_app in L. destruct L as [k2 [Lt L]].
    assert (Hn2 : nobar k2) by (eapply blocks_nobar; eauto). pose proof (ended_ends _ _ _ _ _ _ Hen Lt (or_introl Hn2)) as Hends.
    destruct (IHc l c c0 k1 f r ch Hl Sl Lu Wf Hends Hch Ha) as [st0 [v [ch1 [S1 [E1 [P1 [Sv1 C1]]]]]]].
    destruct (ended_trail e cm cs t k1 k2 (add_body v f) r ch1 Hen Lt) as [vs1 [T1 Sv2]]. rewrite T1 in P1.
    assert (W2 : wf k2). { assert (wf c0) by (eapply spells_wf; eauto). assert (wf k1) by (eapply lay_wf; eauto). eapply lay_wf; eauto. }
    destruct (IH k2 k (add_all vs1 (add_body v f)) r ch1 L W2 Hn C1) as [vs2 [ch2 [S2 [Sv3 C2]]]].
    { apply allows_add, (allows_add w [v]). auto. }
    exists ((v :: vs1) ++ vs2), ch2. split; [|split; auto].
    + eapply steps_trans; [exact S1|]. eapply st_one; [exact E1|exact P1|]. replace (add_all ((v :: vs1) ++ vs2) f) with (add_all vs2 (add_all vs1 (add_body v f))); [exact S2|]. rewrite add_body_all, !add_all_app. reflexivity.
    + constructor; auto. apply Forall2_app; auto.
  - (* here-document *) intros w l a h x xs rr sx w1 w2 ks mk sk cs t dd sd ns s p q Hl Hc Hlh Hw1 Hw2 Hks Hen Ht Hdd Hb IH c k f r ch L Wf Hn Hch Ha.
    rewrite !chars_app, <- !app_assoc in L. apply lay_split in L. destruct L as [c0 [Sl L]]. apply lay_split in L. destruct L as [d [Sh L]]. apply lay_split in L. destruct L as [d1 [Sx L]].
    apply lay_split in L. destruct L as [d2 [Sw1 L]]. apply lay_split in L. destruct L as [d3 [Sop L]]. apply lay_split in L. destruct L as [d4 [Sw2 L]]. apply lay_split in L. destruct L as [k1 [Sk L]].
    apply lay_app in L. destruct L as [k2 [Lt L]]. apply lay_app in L. destruct L as [k3 [Ld L]]. apply lay_cons in L. destruct L as [p3 [k4 [-> L]]].
    pose proof (ended_ends _ _ _ _ _ _ Hen Lt (or_intror Ht)) as Hends.
    destruct (lhs_head _ _ _ _ _ _ _ Hlh) as [x1 [y1 [El [Hx1 Hx2]]]]. assert (Hgl : good_head sx) by (exists x1, y1; auto).
    destruct (words_head _ _ _ Hks) as [rk [yk [Ek Hrk]]].
    assert (W0 : wf c0) by (eapply spells_wf; eauto). assert (Wd : wf d) by (eapply spells_wf; eauto). assert (Wd1 : wf d1) by (eapply spells_wf; eauto).
    assert (Wd2 : wf d2) by (eapply spells_wf; eauto). assert (Wd3 : wf d3) by (eapply spells_wf; eauto). assert (Wd4 : wf d4) by (eapply spells_wf; eauto). assert (W1 : wf k1) by (eapply spells_wf; eauto).
    assert (W2 : wf k2) by (eapply lay_wf; eauto). assert (W4 : wf k4). { pose proof (lay_wf _ _ _ Ld W2) as W3. apply (lay_wf [EOL] (Cons EOL p3 k4)); auto. cbn. auto. }
    destruct (head_step nv _ sx a h l c c0 d d1 (f :: r) ch Hl Sl Hc ltac:(inp) Sh Sx ltac:(intros ->; destruct Hgl as [? [? [Hgl _]]]; discriminate) Hch ltac:(wfs))
      as [e0 [x0 [line [cmdc [arg [ch1 [H1 [H2 [H3 [H4 [H5 [H6 H7]]]]]]]]]]]].
    rewrite (dispatch_is (T "parse_cmd_let") parse_cmd_let (mkEc e0 line cmdc arg x0) _ H1 eq_refl), (head_still sx d d1 Hgl Sx) in H7.
    destruct (read_lhs variable parse_lvalue w1 (T "=<<") x xs rr sx d d1 d3) as [l' [ls' [r' [El' [Sl1 [Sl3 Sl4]]]]]]; auto.
    { intros nn ss cc kk Z1 Z2 Z3 Z4 Z5. exact (read_lvalue nn ss [] cc kk Z1 Z2 eq_refl Z3 Z4 Z5). }
    { right. left. reflexivity. }
    { apply (Cursor.spells_app w1 (T "=<<") d1 d2 d3); auto. }
    assert (Hsk : skip_white d1 = d2). { apply (skip_gap w1); auto. clear - Sop. apply spells_head in Sop. destruct Sop as [? [? [-> _]]]. reflexivity. }
    assert (Hsk3 : skip_white d3 = d4).
    { apply (skip_gap w2); auto. rewrite Ek in Sk. clear - Sk Hrk. apply spells_head in Sk. destruct Sk as [? [? [-> _]]]. cbn. destruct (iswhite rk) eqn:E; auto. apply white_not_wordc in E. congruence. }
    assert (O : ends_excmds1 (peek1 d2) = false /\ (let s := peekn 2 d2 in if text_eqb s (T "..") || text_eqb s (T "=<") then peekn 3 d2 else s) = T "=<<").
    { rewrite Ek in Sk. destruct w2 as [|z w2]; [apply spells_nil in Sw2; subst d4; exact (heredoc_op d2 d3 _ _ _ Sop Sk)|exact (heredoc_op d2 d3 _ _ _ Sop Sw2)]. }
    destruct O as [O1 O2].
    destruct (read_words ks mk sk Hks [] d4 k1 (S (clen d4)) eq_refl Sk (ends_word _ _ _ Hends) (Nat.lt_succ_diag_r _)) as [wvs [Ewd Swd]].
    destruct (ended_trail _ _ _ _ k1 k2 f r ch1 Hen Lt) as [cvs [Ecm Scm]].
    destruct (read_doc mk dd sd Hdd k2 p3 k4 (S (clen k2)) Ld (Nat.lt_succ_diag_r _)) as [dvs [Edd Sdd]].
    set (node := VLet (getpos cmdc) e0 (T "=<<") l' ls' r' (Some (VHeredoc (getpos cmdc) wvs mk dvs))).
    assert (Hrun : parse_cmd_let (mkEc e0 line cmdc arg x0) (mkSt d (f :: r) ch1) = Ok (mkSt (Cons EOL p3 k4) (add_body node (add_all cvs f) :: r) ch1)).
    { unfold parse_cmd_let. cbn [cur]. rewrite (head_still sx d d1 Hgl Sx).
      replace (ends_excmds (peek d)) with false.
      2: { subst sx. apply spells_head in Sx. destruct Sx as [? [? [-> _]]]. cbn [peek ch_of_cell]. rewrite head_not_end by auto. clear - Hx2. cbn in *. lia. }
      rewrite El'. cbn [bind]. rewrite Hsk. cbn zeta. cbn zeta in O2. rewrite O2, O1. change (is_assign_op (T "=<<")) with false. change (text_eqb (T "=<<") (T "=<<")) with true. cbn [negb andb orb].
      rewrite (getn_exact (length (T "=<<")) (T "=<<") d2 d3 Sop eq_refl). cbn [snd]. rewrite Hsk3. unfold parse_heredoc, with_cur. cbn [cur ctx cache]. rewrite Ewd. cbn [bind].
      replace (is_nil mk) with false by (pose proof (words_marker _ _ _ Hks); destruct mk; [congruence|reflexivity]).
      rewrite Ecm. cbn [bind cur ctx cache]. rewrite Edd. cbn [bind]. reflexivity. }
    rewrite Hrun in H7. cbn [bind] in H7.
    assert (Hstep : parse_one_cmd nv (mkSt c (f :: r) ch) = Ok (mkSt k4 (add_body node (add_all cvs f) :: r) ch1)) by (rewrite H7; reflexivity).
    destruct (IH k4 k (add_body node (add_all cvs f)) r ch1 L W4 Hn H5) as [vs2 [ch2 [S2 [Sv3 C2]]]].
    { apply (allows_add w [node]), allows_add. auto. }
    exists ((cvs ++ [node]) ++ vs2), ch2. split; [|split; auto].
    + eapply st_one; [exact H6|exact Hstep|]. replace (add_all ((cvs ++ [node]) ++ vs2) f) with (add_all vs2 (add_body node (add_all cvs f))); [exact S2|]. rewrite add_body_all, !add_all_app, app_assoc. reflexivity.
    + change (cs ++ NLet p a (T "=<<") x xs rr (Some (NHeredoc q ks mk dd)) :: ns) with (cs ++ [NLet p a (T "=<<") x xs rr (Some (NHeredoc q ks mk dd))] ++ ns). rewrite app_assoc. apply Forall2_app; auto. apply Forall2_app; auto. constructor; auto. apply ss_let; auto. apply shows_heredoc; auto.
  - (* text *) intros w l a x tl nm bang white opts kept cs t ns s p Hl Hx Hp HP Hall Hen Hb IH c k f r ch L Wf Hn Hch Ha.
    destruct (lay_rest _ _ _ _ _ _ _ _ Hen L) as [k1 [k2 [z [Sk [Lt [Ls [Hz [Rz Rc]]]]]]]]. destruct (Hall z Hz) as [Hh [Hhash [Hkept Hli]]].
    rewrite <- !app_assoc in Rc. destruct (head_line_back x a l tl nm bang white opts (kept ++ z) c (f :: r) ch Hl Hh Hhash Hx Hp Rc Wf Hch)
      as [a1 [b [d [k0 [e [ch1 [S1 [S2 [R1 [W1 [E1 [Sh [Ef [Er [C1 P1]]]]]]]]]]]]]]].
    rewrite <- Ef in Hkept.
    destruct (kept_back x e a1 b d k0 _ f r ch1 S2 W1 Er kept z) as [q1 [q2 [E2 [S3 S4]]]]; auto.
    { destruct HP as [HP|[HP Hw]]; auto. right. split; auto. exact (proj2 (proj2 Ha) Hw). }
    assert (q1 = k1). { eapply spells_fun; [|exact Sk]. replace (l ++ tl ++ nm ++ bang ++ white ++ opts ++ kept) with ((l ++ tl ++ nm ++ bang ++ white ++ opts) ++ kept) by (rewrite <- !app_assoc; reflexivity). eapply spells_app; eauto. }
    subst q1. rewrite E2 in P1. cbn [bind] in P1. rewrite (trail_skip q2 k1 _ _ S4) in P1. rewrite <- !app_assoc in P1.
    set (v := VExcmd (getpos b) e (tl ++ nm ++ bang ++ white ++ opts ++ kept)) in *.
    destruct (ended_trail false true cs t k1 k2 (add_body v f) r ch1 Hen Lt) as [vs1 [T1 Sv2]]. rewrite T1 in P1.
    assert (W2 : wf k2). { assert (wf k1) by (eapply spells_wf; eauto). eapply lay_wf; eauto. }
    destruct (IH k2 k (add_all vs1 (add_body v f)) r ch1 Ls W2 Hn C1) as [vs2 [ch2 [Q2 [Sv3 C2]]]].
    { apply allows_add, (allows_add w [v]). auto. }
    exists ((v :: vs1) ++ vs2), ch2. split; [|split; auto].
    + eapply st_one; [exact E1|exact P1|]. replace (add_all ((v :: vs1) ++ vs2) f) with (add_all vs2 (add_all vs1 (add_body v f))); [exact Q2|]. rewrite add_body_all, !add_all_app. reflexivity.
    + constructor; [apply ss_excmd; auto|]. apply Forall2_app; auto.
  - (* lines below *) intros w l a x tl nm bang white opts rest m ls ns s p Hl Hx Hp Hh Hhash Htk Hin Hb IH c k f r ch L Wf Hn Hch Ha.
    destruct (lay_text_line _ _ _ _ _ L) as [p1 [t [Sl [Lt Rc]]]].
    destruct (head_line_back x a l tl nm bang white opts rest c (f :: r) ch Hl Hh Hhash Hx Hp Rc Wf Hch)
      as [a1 [b [d [k0 [e [ch1 [S1 [S2 [R1 [W1 [E1 [Sh [Ef [Er [C1 P1]]]]]]]]]]]]]]].
    assert (S3 : spells rest k0 (Cons EOL p1 t)).
    { replace (l ++ tl ++ nm ++ bang ++ white ++ opts ++ rest) with ((l ++ tl ++ nm ++ bang ++ white ++ opts) ++ rest) in Sl by (rewrite <- !app_assoc; reflexivity).
      apply spells_split in Sl. destruct Sl as [m0 [Sa Sb]]. rewrite (spells_fun _ _ _ _ S1 Sa). exact Sb. }
    rewrite (lines_back x e a1 b d k0 _ f r ch1 S2 rest (Some m) p1 t Htk R1 S3) in P1.
    destruct (until_back m ls s Hin (S (clen t)) t k Lt (Nat.lt_succ_diag_r _)) as [p2 [t2 [E2 [L2 Ll]]]]. rewrite E2 in P1. cbn [bind] in P1. rewrite <- !app_assoc in P1.
    set (v := VExcmd (getpos b) e (joined (tl ++ nm ++ bang ++ white ++ opts ++ rest) (ls ++ [m]))) in *.
    assert (W2 : wf t2).
    { assert (Wt : wf t) by (apply (lay_wf [EOL] (Cons EOL p1 t)); [cbn; auto|eapply spells_wf; eauto]). eapply lay_wf; [exact Ll|exact Wt]. }
    destruct (IH t2 k (add_body v f) r ch1 L2 W2 Hn C1) as [vs2 [ch2 [Q2 [Sv3 C2]]]].
    { apply (allows_add w [v]). auto. }
    exists ((v :: nil) ++ vs2), ch2. split; [|split; auto].
    + eapply st_one; [exact E1|exact P1|]. replace (add_all ([v] ++ vs2) f) with (add_all vs2 (add_body v f)); [exact Q2|]. rewrite add_body_all, !add_all_app. reflexivity.
    + constructor; [apply ss_excmd; auto|]. auto.
  - (* modifiers or range only *) intros w l a tl cs t ns s p Hl Hne Hx Hp1 Hp2 Hp3 Hbare Hmr Hall Hen Hb IH c k f r ch L Wf Hn Hch Ha.
    destruct (lay_rest _ _ _ _ _ _ _ _ Hen L) as [k1 [k2 [z [Sk [Lt [Ls [Hz [Rz Rc]]]]]]]]. specialize (Hall z Hz). rewrite <- app_assoc in Rc.
    destruct (bare_line_back (ast_head a) l tl z c (f :: r) ch Hl Hne Hall Rc Wf) as [a1 [b [e [S1 [E1 [Ee P1]]]]]].
    assert (b = k1) by (eapply spells_fun; eauto). subst b.
    assert (Hif : is_nil (hf_modifiers (ast_head a)) && is_nil (hf_range (ast_head a)) = false).
    { cbn [ast_head hf_modifiers hf_range]. destruct Hmr as [Hmr|Hmr]; [destruct (ae_modifiers a); [congruence|reflexivity]|]. destruct (ae_range a); [congruence|]. apply andb_false_r. }
    rewrite Hif in P1. cbn [add_node ctx bind] in P1. unfold with_ctx in P1. cbn [cur cache] in P1.
    assert (Sh : same_head e a).
    { subst e. unfold bare_head, ast_head in Hbare. injection Hbare as B1 B2 B3 B4 B5 B6 B7 B8 B9 B10.
      unfold same_head, new_exarg, map_exarg. cbn [ae_forceit ae_do_ecmd_cmd ae_append ae_usefilter ae_amount ae_force_bin ae_read_edit ae_force_ff ae_force_enc ae_bad_char ae_linepos ae_cmdpos ae_argpos ae_cmd ae_modifiers ae_range].
      rewrite B1, B2, B3, B4, B5, B6, B7, B8, B9, B10, Hx, Hp3. destruct (ae_linepos a), (ae_cmdpos a); try congruence. reflexivity. }
    set (v := VExcmd (getpos k1) e tl) in *. fold (add_body v f) in P1.
    destruct (ended_trail false true cs t k1 k2 (add_body v f) r ch Hen Lt) as [vs1 [T1 Sv2]]. rewrite T1 in P1.
    assert (W2 : wf k2). { assert (wf k1) by (eapply spells_wf; eauto). eapply lay_wf; eauto. }
    destruct (IH k2 k (add_all vs1 (add_body v f)) r ch Ls W2 Hn Hch) as [vs2 [ch2 [Q2 [Sv3 C2]]]].
    { apply allows_add, (allows_add w [v]). auto. }
    exists ((v :: vs1) ++ vs2), ch2. split; [|split; auto].
    + eapply st_one; [exact E1|exact P1|]. replace (add_all ((v :: vs1) ++ vs2) f) with (add_all vs2 (add_all vs1 (add_body v f))); [exact Q2|]. rewrite add_body_all, !add_all_app. reflexivity.
    + constructor; [apply ss_excmd; auto|]. apply Forall2_app; auto.
  - (* nothing *) intros w l h tl cs t ns s Hl Hne Hm Hr0 Hall Hen Hb IH c k f r ch L Wf Hn Hch Ha.
    destruct (lay_rest _ _ _ _ _ _ _ _ Hen L) as [k1 [k2 [z [Sk [Lt [Ls [Hz [Rz Rc]]]]]]]]. specialize (Hall z Hz). rewrite <- app_assoc in Rc.
    destruct (bare_line_back h l tl z c (f :: r) ch Hl Hne Hall Rc Wf) as [a1 [b [e [S1 [E1 [Ee P1]]]]]].
    assert (b = k1) by (eapply spells_fun; eauto). subst b. rewrite Hm, Hr0 in P1. cbn [is_nil andb bind] in P1.
    destruct (ended_trail false true cs t k1 k2 f r ch Hen Lt) as [vs1 [T1 Sv2]]. rewrite T1 in P1.
    assert (W2 : wf k2). { assert (wf k1) by (eapply spells_wf; eauto). eapply lay_wf; eauto. }
    destruct (IH k2 k (add_all vs1 f) r ch Ls W2 Hn Hch (allows_add _ _ _ _ Ha)) as [vs2 [ch2 [Q2 [Sv3 C2]]]].
    exists (vs1 ++ vs2), ch2. split; [|split; auto].
    + eapply st_one; [exact E1|exact P1|]. rewrite <- add_all_app. exact Q2.
    + apply Forall2_app; auto.
  - (* end of the parts of if *) intros w c k fr cond es0 gp ge gb r ch L Wf Hn Hch Ha Ho. cbn in L. subst k. exists fr, [], None, ch. rewrite app_nil_r. split; [constructor|]. split; [apply open_if_more; auto|]. split; [constructor|]. split; [exact I|auto].
  - (* else *) intros w l a h cs t b sb p Hl Hc Hen Hb IHb c k fr cond es0 gp ge gb r ch L Wf Hn Hch Ha Ho.
    rewrite chars_app, <- app_assoc in L. apply lay_split in L. destruct L as [c0 [Sl L]]. apply lay_split in L. destruct L as [k1 [Sh L]]. apply lay_app in L. destruct L as [k2 [Lt Lb]].
    assert (Hn2 : nobar k2) by (eapply blocks_nobar; eauto). pose proof (trail_nobar _ _ _ True _ _ Hen Lt Hn2) as Hends.
    assert (W0 : wf c0) by (eapply spells_wf; eauto). assert (W1 : wf k1) by (eapply spells_wf; eauto).
    destruct (head_step nv _ [] a h l c c0 k1 k1 fr ch Hl Sl Hc ltac:(inp) Sh eq_refl (ends_nothing _ _ _ Hends) Hch ltac:(wfs))
      as [e0 [x0 [line [cmdc [arg [ch1 [H1 [H2 [H3 [H4 [H5 [H6 H7]]]]]]]]]]]].
    rewrite (dispatch_is (T "parse_cmd_else") parse_cmd_else (mkEc e0 line cmdc arg x0) _ H1 eq_refl) in H7.
    destruct (open_if_close _ _ _ _ (skip_white k1) ch1 Ho) as [f1 [T1 [T2 [T3 T4]]]].
    set (g := mkFrame (FIf cond es0 None) gp ge gb) in *.
    assert (Hrun : parse_cmd_else (mkEc e0 line cmdc arg x0) (mkSt (skip_white k1) fr ch1) = Ok (mkSt (skip_white k1) (mkFrame FElse (getpos cmdc) e0 [] :: g :: r) ch1)).
    { unfold parse_cmd_else. rewrite T1. cbn [bind]. rewrite T4. specialize (T3 eq_refl). destruct (f_kind f1); try discriminate; reflexivity. }
    rewrite Hrun in H7. cbn [bind] in H7.
    destruct (open_run (in_block w) cs t b sb (mkSt c fr ch) k1 (skip_white k1) k2 k _ (g :: r) ch1 false H6 H7 (skip_white_idem _) Hen Lt Lb IHb W1 Hn H5) as [vs [ch2 [S2 [Sv2 C2]]]].
    { apply allows_block; [discriminate|]. destruct Ha as [A1 [A2 A3]]. split; [|split]; cbn [existsb f_kind is_function is_while is_for orb g]; auto. discriminate. }
    exists (mkFrame FElse (getpos cmdc) e0 vs :: g :: r), [], (Some (VElse (getpos cmdc) e0 vs)), ch2. split; [exact S2|]. split.
    { split; [reflexivity|]. right. do 2 eexists. split; [reflexivity|]. split; [reflexivity|]. split; [reflexivity|]. intros. rewrite app_nil_r. reflexivity. }
    split; [constructor|]. split; auto. apply sk_else; auto.
  - (* elseif *) intros w e l a h cn sc cs t b sb es el s p Hl Hc Hcn Hen Hb IHb Hp IHp c k fr cond es0 gp ge gb r ch L Wf Hn Hch Ha Ho.
    rewrite !chars_app, <- !app_assoc in L. apply lay_split in L. destruct L as [c0 [Sl L]]. apply lay_split in L. destruct L as [d [Sh L]]. apply lay_split in L. destruct L as [k1 [Sc L]]. apply lay_app in L. destruct L as [k2 [Lt L]]. apply lay_app in L. destruct L as [k3 [Lb Lp]].
    assert (Hn3 : nobar k3) by (eapply if_parts_nobar; eauto). assert (Hn2 : nobar k2) by (eapply blocks_nobar; eauto). pose proof (trail_nobar _ _ _ True _ _ Hen Lt Hn2) as Hends. pose proof (written_head _ _ _ _ Hcn) as Hg.
    assert (W0 : wf c0) by (eapply spells_wf; eauto). assert (Wd : wf d) by (eapply spells_wf; eauto). assert (W1 : wf k1) by (eapply spells_wf; eauto).
    assert (W2 : wf k2) by (eapply lay_wf; eauto). assert (W3 : wf k3) by (eapply lay_wf; eauto).
    destruct (head_step nv _ sc a h l c c0 d k1 fr ch Hl Sl Hc ltac:(inp) Sh Sc ltac:(intros ->; destruct Hg as [? [? [Hg _]]]; discriminate) Hch ltac:(wfs))
      as [e0 [x0 [line [cmdc [arg [ch1 [H1 [H2 [H3 [H4 [H5 [H6 H7]]]]]]]]]]]].
    rewrite (dispatch_is (T "parse_cmd_elseif") parse_cmd_elseif (mkEc e0 line cmdc arg x0) _ H1 eq_refl), (head_still sc d k1 Hg Sc) in H7.
    destruct (open_if_close _ _ _ _ d ch1 Ho) as [f1 [T1 [T2 [T3 T4]]]].
    set (g := mkFrame (FIf cond es0 None) gp ge gb) in *.
    destruct (read_expr e cn sc [] d k1 Hcn eq_refl Sc Wd (ends_stop _ _ _ _ Hends W1)) as [v [Ev Sv]].
    assert (Hrun : parse_cmd_elseif (mkEc e0 line cmdc arg x0) (mkSt d fr ch1) = Ok (mkSt k1 (mkFrame (FElseif v) (getpos cmdc) e0 [] :: g :: r) ch1)).
    { unfold parse_cmd_elseif. rewrite T1. cbn [bind]. rewrite T4. cbn [bind cur]. rewrite Ev. specialize (T3 eq_refl). destruct (f_kind f1); try discriminate; reflexivity. }
    rewrite Hrun in H7. cbn [bind] in H7.
    destruct (open_run (in_block w) cs t b sb (mkSt c fr ch) k1 k1 k2 k3 _ (g :: r) ch1 e H6 H7 eq_refl Hen Lt Lb IHb W1 Hn3 H5) as [vs [ch2 [S2 [Sv2 C2]]]].
    { apply allows_block; [discriminate|]. destruct Ha as [A1 [A2 A3]]. split; [|split]; cbn [existsb f_kind is_function is_while is_for orb g]; auto. discriminate. }
    destruct (IHp k3 k (mkFrame (FElseif v) (getpos cmdc) e0 vs :: g :: r) cond (es0 ++ [VElseif (getpos cmdc) e0 vs v]) gp ge gb r ch2 Lp W3 Hn C2 Ha) as [fr' [es' [el' [ch3 [S3 [O3 [Ses [Sel C3]]]]]]]].
    { split; [reflexivity|]. right. do 2 eexists. split; [reflexivity|]. split; [reflexivity|]. split; [exact I|]. intros. reflexivity. }
    exists fr', (VElseif (getpos cmdc) e0 vs v :: es'), el', ch3. split; [eapply steps_trans; [exact S2|exact S3]|]. split; [rewrite <- app_assoc in O3; exact O3|].
    split; [constructor; auto|auto]. apply sk_elseif; auto.
  - (* end of the parts of try *) intros w c k fr es0 gp ge gb r ch L Wf Hn Hch Ha Ho. cbn in L. subst k. exists fr, [], None, ch. rewrite app_nil_r. split; [constructor|]. split; [apply open_try_more; auto|]. split; [constructor|]. split; [exact I|auto].
  - (* finally *) intros w l a h cs t b sb p Hl Hc Hen Hb IHb c k fr es0 gp ge gb r ch L Wf Hn Hch Ha Ho.
    rewrite chars_app, <- app_assoc in L. apply lay_split in L. destruct L as [c0 [Sl L]]. apply lay_split in L. destruct L as [k1 [Sh L]]. apply lay_app in L. destruct L as [k2 [Lt Lb]].
    assert (Hn2 : nobar k2) by (eapply blocks_nobar; eauto). pose proof (trail_nobar _ _ _ True _ _ Hen Lt Hn2) as Hends.
    assert (W0 : wf c0) by (eapply spells_wf; eauto). assert (W1 : wf k1) by (eapply spells_wf; eauto).
    destruct (head_step nv _ [] a h l c c0 k1 k1 fr ch Hl Sl Hc ltac:(inp) Sh eq_refl (ends_nothing _ _ _ Hends) Hch ltac:(wfs))
      as [e0 [x0 [line [cmdc [arg [ch1 [H1 [H2 [H3 [H4 [H5 [H6 H7]]]]]]]]]]]].
    rewrite (dispatch_is (T "parse_cmd_finally") parse_cmd_finally (mkEc e0 line cmdc arg x0) _ H1 eq_refl) in H7.
    destruct (open_try_close _ _ _ _ (skip_white k1) ch1 Ho) as [f1 [T1 [T2 [T3 T4]]]].
    set (g := mkFrame (FTry es0 None) gp ge gb) in *.
    assert (Hrun : parse_cmd_finally (mkEc e0 line cmdc arg x0) (mkSt (skip_white k1) fr ch1) = Ok (mkSt (skip_white k1) (mkFrame FFinally (getpos cmdc) e0 [] :: g :: r) ch1)).
    { unfold parse_cmd_finally. rewrite T1. cbn [bind]. rewrite T4. specialize (T3 eq_refl). destruct (f_kind f1); try discriminate; reflexivity. }
    rewrite Hrun in H7. cbn [bind] in H7.
    destruct (open_run (in_block w) cs t b sb (mkSt c fr ch) k1 (skip_white k1) k2 k _ (g :: r) ch1 false H6 H7 (skip_white_idem _) Hen Lt Lb IHb W1 Hn H5) as [vs [ch2 [S2 [Sv2 C2]]]].
    { apply allows_block; [discriminate|]. destruct Ha as [A1 [A2 A3]]. split; [|split]; cbn [existsb f_kind is_function is_while is_for orb g]; auto. discriminate. }
    exists (mkFrame FFinally (getpos cmdc) e0 vs :: g :: r), [], (Some (VFinally (getpos cmdc) e0 vs)), ch2. split; [exact S2|]. split.
    { split; [reflexivity|]. right. do 2 eexists. split; [reflexivity|]. split; [reflexivity|]. split; [reflexivity|]. intros. rewrite app_nil_r. reflexivity. }
    split; [constructor|]. split; auto. apply sk_finally; auto.
  - (* catch *) intros w e l a h cn sc cs t b sb es el s p Hl Hc Hcn Hen Hb IHb Hp IHp c k fr es0 gp ge gb r ch L Wf Hn Hch Ha Ho.
    rewrite !chars_app, <- !app_assoc in L. apply lay_split in L. destruct L as [c0 [Sl L]]. apply lay_split in L. destruct L as [d [Sh L]]. apply lay_split in L. destruct L as [k1 [Sc L]]. apply lay_app in L. destruct L as [k2 [Lt L]]. apply lay_app in L. destruct L as [k3 [Lb Lp]].
    assert (Hn3 : nobar k3) by (eapply try_parts_nobar; eauto). assert (Hn2 : nobar k2) by (eapply blocks_nobar; eauto). pose proof (trail_nobar _ _ _ True _ _ Hen Lt Hn2) as Hends.
    assert (W0 : wf c0) by (eapply spells_wf; eauto). assert (Wd : wf d) by (eapply spells_wf; eauto). assert (W1 : wf k1) by (eapply spells_wf; eauto).
    assert (W2 : wf k2) by (eapply lay_wf; eauto). assert (W3 : wf k3) by (eapply lay_wf; eauto).
    destruct (head_step nv _ sc a h l c c0 d k1 fr ch Hl Sl Hc ltac:(inp) Sh Sc (fun _ => ends_no_more _ _ _ Hends) Hch ltac:(wfs))
      as [e0 [x0 [line [cmdc [arg [ch1 [H1 [H2 [H3 [H4 [H5 [H6 H7]]]]]]]]]]]].
    rewrite (dispatch_is (T "parse_cmd_catch") parse_cmd_catch (mkEc e0 line cmdc arg x0) _ H1 eq_refl) in H7.
    destruct (open_try_close _ _ _ _ (skip_white d) ch1 Ho) as [f1 [T1 [T2 [T3 T4]]]].
    set (g := mkFrame (FTry es0 None) gp ge gb) in *.
    destruct (read_pattern e cn sc d k1 Hcn Sc Hends) as [k1' [Ev Hk]].
    assert (Hrun : parse_cmd_catch (mkEc e0 line cmdc arg x0) (mkSt (skip_white d) fr ch1) = Ok (mkSt k1' (mkFrame (FCatch cn) (getpos cmdc) e0 [] :: g :: r) ch1)).
    { rewrite catch_eq, T1. cbn [bind]. rewrite T4. cbn [bind cur]. rewrite skip_white_idem, Ev. specialize (T3 eq_refl). destruct (f_kind f1); try discriminate; reflexivity. }
    rewrite Hrun in H7. cbn [bind] in H7.
    destruct (open_run (in_block w) cs t b sb (mkSt c fr ch) k1 k1' k2 k3 _ (g :: r) ch1 e H6 H7 Hk Hen Lt Lb IHb W1 Hn3 H5) as [vs [ch2 [S2 [Sv2 C2]]]].
    { apply allows_block; [discriminate|]. destruct Ha as [A1 [A2 A3]]. split; [|split]; cbn [existsb f_kind is_function is_while is_for orb g]; auto. discriminate. }
    destruct (IHp k3 k (mkFrame (FCatch cn) (getpos cmdc) e0 vs :: g :: r) (es0 ++ [VCatch (getpos cmdc) e0 vs cn]) gp ge gb r ch2 Lp W3 Hn C2 Ha) as [fr' [es' [el' [ch3 [S3 [O3 [Ses [Sel C3]]]]]]]].
    { split; [reflexivity|]. right. do 2 eexists. split; [reflexivity|]. split; [reflexivity|]. split; [exact I|]. intros. reflexivity. }
    exists fr', (VCatch (getpos cmdc) e0 vs cn :: es'), el', ch3. split; [eapply steps_trans; [exact S2|exact S3]|]. split; [rewrite <- app_assoc in O3; exact O3|].
    split; [constructor; auto|auto]. apply sk_catch; auto.
Qed.
End Blocks.
