(** The arguments of written commands are read back: expressions one after the other,
    left-hand sides, variables, parameters, attributes, patterns, here-documents. *)
From Coq Require Import Lia ZifyBool ZifyNat ZifyN Wf_nat.
From Verif Require Import Base CharClass Reader Vnode Token Tokenizer ExprParser Cursor Grammar TokSafe Ast Export Join JoinProof Script Written WrittenProof Lookahead WrittenBrace PrintBack CmdTable CmdParser CmdBase WrittenScript TargetProof.

Lemma skip_white_idem c : skip_white (skip_white c) = skip_white c.
Proof. symmetry. apply blank_fun. destruct (blank_skip c) as [w [_ [_ H]]]. exists []. cbn. auto. Qed.
Lemma tget_skip c : tget (skip_white c) = tget c.
Proof. unfold tget. rewrite skip_white_idem. reflexivity. Qed.
Lemma skip_white_head c r : peek c = CR r -> iswhite r = false -> skip_white c = c.
Proof. intros Hp Hr. symmetry. apply blank_fun. exists []. cbn. split; auto. split; auto. intros x Hx. destruct c as [|[|y] p t]; try discriminate. cbn in *. congruence. Qed.

Lemma read_expr e n s ws c k : written e 1 n s -> gap ws -> spells (ws ++ s) c k -> wf c -> stop e (rightmost n) 1 k ->
  exists v, parse_expr c = Ok (v, k) /\ shows v n.
Proof. intros Hn Hw Sp Wf Hs. unfold parse_expr. eapply reads1; eauto. apply written_reads; eauto. Qed.

(** * The end of the arguments *)

Definition ends (e cm : bool) (k : cursor) : Prop :=
  exists w d, gap w /\ spells w k d /\ (e = true -> w = []) /\
    ((exists p t, d = Cons EOL p t) \/
     (e = false /\ exists p t, d = Cons (R (C "|")) p t /\ ch_is (peek t) (C "|") = false) \/
     (e = false /\ cm = true /\ exists p t, d = Cons (R (C """")) p t)).

Lemma sticks_end n x : In x (T "|"";") -> sticks n x = false.
Proof.
  intros H. cbn [In] in H. repeat (destruct H as [<-|H]; [destruct n; try reflexivity; cbn [sticks];
    [destruct kind; try reflexivity; cbn; rewrite ?andb_false_r; reflexivity|cbn; rewrite andb_false_r; reflexivity]|]). contradiction.
Qed.

Lemma gap_peek w c d n : gap w -> spells w c d -> fits n (peek d) = true -> fits n (peek c) = true.
Proof.
  intros Hw Sp Hd. destruct w as [|r w]; [apply spells_nil in Sp; subst; auto|].
  apply (gap_fits n (r :: w) [] c d); auto; [discriminate|rewrite app_nil_r; auto].
Qed.

Lemma bar_get p t : wf (Cons (R (C "|")) p t) -> ch_is (peek t) (C "|") = false ->
  tget (Cons (R (C "|")) p t) = Ok (mkTok KOr (T "|") p, t).
Proof.
  intros Hw Hp. change (tget (Cons (R (C "|")) p t)) with (let* x := p_ 1 (Cons (R (C "|")) p t) in
      if ch_is x (C "|") then tok_fix KOrOr (T "||") (Cons (R (C "|")) p t) else tok_fix KOr (T "|") (Cons (R (C "|")) p t)).
  rewrite p_S, p_0 by auto. cbn [bind]. rewrite Hp. reflexivity.
Qed.

Lemma ends_any e cm n k : ends e cm k -> wf k -> forall b, (b = true -> e = true) -> stop b n 1 k.
Proof.
  intros [w [d [Hw [Sp [He Hd]]]]] Wf b Hb. pose proof (spells_wf _ _ _ Sp Wf) as Wd. split; [|split].
  - intros ->. rewrite (He (Hb eq_refl)) in Sp. apply spells_nil in Sp. subst d.
    destruct Hd as [[p [t ->]]|[[E _]|[E _]]]; [reflexivity|rewrite Hb in E; auto; discriminate|rewrite Hb in E; auto; discriminate].
  - eapply gap_peek; eauto. destruct Hd as [[p [t ->]]|[[_ [p [t [-> _]]]]|[_ [_ [p [t ->]]]]]]; [reflexivity| |];
      cbn [peek ch_of_cell fits]; rewrite sticks_end; auto; cbn; auto.
  - assert (Hs : skip_white k = d).
    { apply (skip_gap w); auto. destruct Hd as [[p [t ->]]|[[_ [p [t [-> _]]]]|[_ [_ [p [t ->]]]]]]; reflexivity. }
    rewrite <- tget_skip, Hs.
    destruct Hd as [[p [t ->]]|[[_ [p [t [-> Ht]]]]|[_ [_ [p [t ->]]]]]].
    + do 2 eexists. split; [reflexivity|]. cbn [tk lev]. lia.
    + do 2 eexists. split; [apply bar_get; auto|]. cbn [tk lev]. lia.
    + do 2 eexists. split; [reflexivity|]. cbn [tk lev]. lia.
Qed.
Lemma ends_stop e cm n k : ends e cm k -> wf k -> stop e n 1 k.
Proof. intros. eapply ends_any; eauto. Qed.
Lemma ends_lstop e cm n k : ends e cm k -> wf k -> lstop n k.
Proof. intros. eapply stop_lstop, ends_stop; eauto. Qed.
Lemma ends_word e cm k : ends e cm k -> ch_in iswordc (peek k) = false.
Proof.
  intros [w [d [Hw [Sp [He Hd]]]]]. destruct w as [|r w].
  - apply spells_nil in Sp. subst d. destruct Hd as [[p [t ->]]|[[_ [p [t [-> _]]]]|[_ [_ [p [t ->]]]]]]; reflexivity.
  - apply spells_head in Sp. destruct Sp as [p [t [-> _]]]. unfold gap in Hw. cbn [forallb] in Hw. apply andb_true_iff in Hw.
    destruct Hw as [Hr _]. cbn. unfold iswhite in Hr. apply orb_true_iff in Hr. destruct Hr as [Hr|Hr]; apply N.eqb_eq in Hr; subst; reflexivity.
Qed.
Lemma ends_skip e cm k : ends e cm k -> ends_excmds (peek (skip_white k)) = true /\ (cm = false -> ch_is (peek (skip_white k)) (C """") = false).
Proof.
  intros [w [d [Hw [Sp [He Hd]]]]]. assert (Hs : skip_white k = d).
  { apply (skip_gap w); auto. destruct Hd as [[p [t ->]]|[[_ [p [t [-> _]]]]|[_ [_ [p [t ->]]]]]]; reflexivity. }
  rewrite Hs. destruct Hd as [[p [t ->]]|[[_ [p [t [-> _]]]]|[_ [E [p [t ->]]]]]]; split; try reflexivity. intros ->. discriminate.
Qed.

(** * Expressions one after the other *)

Definition starts (k : tok) : bool :=
  match k with
  | KNumber | KBlob | KDQuote | KSQuote | KSqOpen | KCOpen | KLitCOpen | KPOpen | KOption | KIdent | KEnv | KReg
  | KNot | KMinus | KPlus | KCmp OLt MNone | KCmp OIs _ | KCmp OIsNot _ => true
  | _ => false
  end.
Lemma starts9 e1 c r : parse_expr9 e1 c = Ok r -> exists t d, tget c = Ok (t, d) /\ starts (tk t) = true.
Proof.
  unfold parse_expr9. intros H. apply bind_ok in H. destruct H as [[t d] [H1 H2]]. exists t, d. split; auto.
  destruct (tk t); auto; try discriminate. destruct o, m; auto; discriminate.
Qed.
Lemma starts8 e1 c r : parse_expr8 e1 c = Ok r -> exists t d, tget c = Ok (t, d) /\ starts (tk t) = true.
Proof. unfold parse_expr8. intros H. apply bind_ok in H. destruct H as [r' [H1 H2]]. eapply starts9; eauto. Qed.
Lemma starts7 e1 n c r : expr7_loop e1 n c = Ok r -> exists t d, tget c = Ok (t, d) /\ starts (tk t) = true.
Proof.
  destruct n as [|n]; [discriminate|]. cbn [expr7_loop]. intros H. apply bind_ok in H. destruct H as [[t d] [H1 H2]].
  destruct (tk t) eqn:E; try (apply starts8 in H2; destruct H2 as [t' [d' [Ht Ho]]]; rewrite H1 in Ht; injection Ht as <- <-; eauto);
  exists t, d; rewrite E; auto.
Qed.
Lemma starts1 f c r : parse_expr1 f c = Ok r -> exists t d, tget c = Ok (t, d) /\ starts (tk t) = true.
Proof.
  destruct f as [|f]; [discriminate|]. cbn [parse_expr1]. unfold expr1_body, parse_expr2, parse_expr3, parse_expr4, parse_expr5,
    parse_expr6, parse_expr7, bin_level. intros H. do 6 (apply bind_ok in H; destruct H as [? [H _]]). eapply starts7; eauto.
Qed.

Lemma apart_stop n w sn c k t d : apart n w sn -> gap w -> good_head sn -> spells (w ++ sn) c k -> wf c -> ch_in iswordc (peek k) = false ->
  tget c = Ok (t, d) -> starts (tk t) = true -> stop false (rightmost n) 1 c.
Proof.
  intros [Hfo [Hh [Hsq Ho]]] Hw Hg Sp Wf Hk Ht Hst.
  split; [discriminate|]. split; [eapply follows_fits; eauto; destruct Hg as [? [? [-> _]]]; discriminate|].
  exists t, d. split; auto. pose proof Sp as Sp0. apply spells_split in Sp. destruct Sp as [c1 [Sw Sn]].
  destruct Hg as [x [y [-> Hx]]]. unfold head_ok in Hx. apply negb_true_iff, orb_false_iff in Hx. destruct Hx as [Hx1 Hx2].
  assert (Hsk : skip_white c = c1). { apply (skip_gap w); auto. apply spells_head in Sn. destruct Sn as [? [? [-> _]]]. exact Hx1. }
  assert (Hpk : peek c1 = CR x) by (apply spells_head in Sn; destruct Sn as [? [? [-> _]]]; reflexivity).
  assert (Hz : forall z y, spelling (tk t) = Some (z :: y) -> x = z).
  { intros z y' E. destruct (head_token c t d z y' Ht Wf E) as [Hq _]. rewrite Hsk, Hpk in Hq. congruence. }
  cbn [head_not] in Hh.
  assert (Hsq' : tk t = KSqOpen -> ch_in iswhite (peek c) = true).
  { intros E. destruct w as [|a w].
    - exfalso. specialize (Hsq eq_refl). cbn [head_not] in Hsq. rewrite (Hz (C "[") []) in Hsq; [discriminate|rewrite E; reflexivity].
    - refine (proj2 (gap_fits n (a :: w) (x :: y) c k Hw _ Sp0)). discriminate. }
  assert (Hcm : ~ exists m, tk t = KCmp OIs m \/ tk t = KCmp OIsNot m).
  { intros Hkm. destruct (wordc_cases c t d Ht Wf Hkm) as [r' [p' [u' [e [z [E [Hr' [Hzi [Sx Hpe]]]]]]]]]. rewrite Hsk in *.
    destruct (spells_two _ _ _ _ _ Sn Sx) as [[a' [Ea Sa]]|[b' [Eb Sb]]].
    - apply Ho. exists z, a'. split; auto. split; auto. destruct a' as [|q a']; [exact I|]. cbn [head_not].
      apply spells_head in Sa. destruct Sa as [? [? [-> _]]]. exact Hpe.
    - destruct b' as [|q b'].
      + apply Ho. exists z, []. rewrite app_nil_r in Eb. split; auto. split; [symmetry; rewrite app_nil_r; auto|exact I].
      + apply spells_head in Sb. destruct Sb as [? [? [-> _]]]. cbn [peek ch_of_cell ch_in] in Hk.
        assert (Hy : In q z) by (rewrite Eb; apply in_or_app; right; left; reflexivity).
        cbn [In] in Hzi. destruct Hzi as [<-|[<-|[]]]; cbn [In] in Hy; repeat (destruct Hy as [<-|Hy]; [discriminate Hk|]); contradiction. }
  destruct (tk t) eqn:E; cbn [starts lev] in *; try discriminate; try lia.
  - destruct o, m; try discriminate; try (exfalso; apply Hcm; eauto; fail).
    rewrite (Hz (C "<") []) in Hh by reflexivity. discriminate Hh.
  - rewrite (Hz (C "+") []) in Hh by reflexivity. discriminate Hh.
  - rewrite (Hz (C "-") []) in Hh by reflexivity. discriminate Hh.
  - rewrite (Hz (C "(") []) in Hh by reflexivity. discriminate Hh.
  - rewrite Hsq' by reflexivity. lia.
Qed.

Lemma head_skip s w c k : good_head s -> gap w -> spells (w ++ s) c k ->
  exists c1 r, skip_white c = c1 /\ spells w c c1 /\ spells s c1 k /\ peek c1 = CR r /\ hd 0 s = r /\ head_ok r = true.
Proof.
  intros [x [y [-> Hx]]] Hw Sp. apply spells_split in Sp. destruct Sp as [c1 [Sw Sn]]. exists c1, x. pose proof Hx as Hx0.
  unfold head_ok in Hx. apply negb_true_iff, orb_false_iff in Hx. destruct Hx as [Hx1 Hx2].
  assert (Hpk : peek c1 = CR x) by (apply spells_head in Sn; destruct Sn as [? [? [-> _]]]; reflexivity).
  split; [|auto 6]. apply (skip_gap w); auto. rewrite Hpk. exact Hx1.
Qed.
Lemma head_not_end r : head_ok r = true -> ends_excmds (CR r) = (r =? C """").
Proof.
  intros H. cbn [ends_excmds]. destruct (r =? C "|") eqn:E; auto. apply N.eqb_eq in E. subst. discriminate.
Qed.

Lemma exprs_head e ns s : written_exprs e ns s -> good_head s.
Proof. destruct 1; [eapply written_head; eauto|]. apply good_app. eapply written_head; eauto. Qed.

Lemma read_exprs e ns s : written_exprs e ns s -> forall w c k m, gap w -> spells (w ++ s) c k -> wf c -> ends e false k -> (clen c < m)%nat ->
  (exists vs, exprs_loop m c = Ok (vs, skip_white k) /\ Forall2 shows vs ns) /\ exists t d, tget c = Ok (t, d) /\ starts (tk t) = true.
Proof.
  intros H. pose proof (exprs_head _ _ _ H) as Hg. revert Hg. induction H as [n s Hn|n s w1 ns sn Hn Hw1 Hap Hns IH]; intros Hg w c k m Hw Sp Wf Hk Hm.
  - destruct (head_skip _ _ _ _ Hg Hw Sp) as [c1 [r [Hs [Sw [Sn [Hp [_ Hr]]]]]]]. pose proof (spells_wf _ _ _ Sw Wf) as Wf1.
    destruct (read_expr e n s [] c1 k Hn eq_refl Sn Wf1) as [v [E Sh]].
    { eapply ends_stop; eauto. eapply spells_wf; eauto. }
    assert (L : (clen k < clen c)%nat) by (eapply spells_lt; [exact Sp|]; destruct Hg as [? [? [-> _]]]; destruct w; discriminate).
    split.
    + exists [v]. split; [|auto]. destruct m as [|[|m]]; [lia|lia|]. cbn [exprs_loop]. rewrite Hs, Hp.
      rewrite head_not_end by auto. assert (Hb : negb (ch_is (CR r) (C """")) && (r =? C """") = false) by (cbn [ch_is]; destruct (r =? C """"); reflexivity).
      rewrite Hb, E. cbn [bind]. destruct (ends_skip _ _ _ Hk) as [E1 E2]. rewrite E1, E2 by auto. reflexivity.
    + rewrite <- tget_skip, Hs. eapply starts1. exact E.
  - assert (Hg1 : good_head s) by (eapply written_head; eauto). pose proof (exprs_head _ _ _ Hns) as Hg2.
    rewrite app_assoc in Sp. apply spells_split in Sp. destruct Sp as [k1 [Sa Sb]]. pose proof (spells_wf _ _ _ Sa Wf) as Wk1.
    assert (L : (clen k1 < clen c)%nat) by (eapply spells_lt; [exact Sa|]; destruct Hg1 as [? [? [-> _]]]; destruct w; discriminate).
    destruct m as [|m]; [lia|].
    destruct (IH Hg2 w1 k1 k m Hw1 Sb Wk1 Hk ltac:(lia)) as [[vs [E2 Sh2]] [t [d [Ht Hst]]]].
    pose proof (apart_stop n w1 sn k1 k t d Hap Hw1 Hg2 Sb Wk1 (ends_word _ _ _ Hk) Ht Hst) as Hstop.
    destruct (head_skip _ _ _ _ Hg1 Hw Sa) as [c1 [r [Hs [Sw [Sn [Hp [_ Hr]]]]]]]. pose proof (spells_wf _ _ _ Sw Wf) as Wf1.
    destruct (read_expr false n s [] c1 k1 Hn eq_refl Sn Wf1 Hstop) as [v [E Sh]].
    split.
    + exists (v :: vs). split; [|auto]. cbn [exprs_loop]. rewrite Hs, Hp.
      rewrite head_not_end by auto. assert (Hb : negb (ch_is (CR r) (C """")) && (r =? C """") = false) by (cbn [ch_is]; destruct (r =? C """"); reflexivity).
      rewrite Hb, E. cbn [bind]. rewrite E2. reflexivity.
    + rewrite <- tget_skip, Hs. eapply starts1. exact E.
Qed.

(** * Variables one after the other *)

Lemma name1_digit r : isnamec1 r = true -> isdigit r = false.
Proof. unfold isnamec1, iswordc1, isalpha, isupper, islower, isdigit, between. cbn. lia. Qed.

Lemma target_head n s : written_target n s -> exists r y, s = r :: y /\ head_ok r = true /\ r <> C """" /\ r <> C "[" /\ isdigit r = false.
Proof.
  intros [Hw [Hn _]]. revert n Hw Hn. induction s as [s IH] using (induction_ltof1 _ (@length N)). unfold ltof in IH. intros n Hw Hn.
  pose proof (written_head _ _ _ _ Hw) as Hg.
  assert (Hlen : forall sa x rest, s = sa ++ x :: rest -> (length sa < length s)%nat) by (intros ? ? ? ->; rewrite app_length; cbn [length]; lia).
  assert (Happ : forall sa x rest, s = sa ++ x :: rest -> (exists r y, sa = r :: y /\ head_ok r = true /\ r <> C """" /\ r <> C "[" /\ isdigit r = false) ->
    exists r y, s = r :: y /\ head_ok r = true /\ r <> C """" /\ r <> C "[" /\ isdigit r = false).
  { intros sa x rest -> [r [y [-> H]]]. exists r, (y ++ x :: rest). auto. }
  inversion Hw; subst; try discriminate Hn.
  - match goal with H : written false 9 n s |- _ => rename H into H9 end. destruct Hg as [r [y [-> Hr]]]. exists r, y. split; auto. split; auto.
    clear IH Hlen Happ Hw. inversion H9; subst; try lia; try discriminate Hn.
    + match goal with H : lit_text _ _ |- _ => rename H into Hl end. destruct k; try discriminate Hn; cbn [lit_text] in Hl.
      * destruct Hl as [sc [w [_ [_ E]]]]. injection E as -> _. repeat split; discriminate.
      * destruct Hl as [w [_ E]]. injection E as -> _. repeat split; discriminate.
      * destruct Hl as [w [_ E]]. injection E as -> _. repeat split; discriminate.
    + match goal with H : name_text _ |- _ => rename H into Hl end. destruct Hl as [[r' [w [E [Hr' _]]]]|Hl].
      * injection E as <- <-. split; [intros ->; discriminate|split; [intros ->; discriminate|]]. apply name1_digit; auto.
      * apply sid_head in Hl. destruct Hl as [b [w [E _]]]. injection E as -> _. repeat split; discriminate.
    + match goal with H : isnamec1 _ = true |- _ => rename H into Hr' end.
      split; [intros ->; discriminate|split; [intros ->; discriminate|]]. apply name1_digit; auto.
    + match goal with H : is_sid _ |- _ => apply sid_head in H; destruct H as [b [w [-> _]]] end.
      match goal with H : _ ++ _ = _ |- _ => injection H as <- _ end. repeat split; discriminate.
    + repeat split; discriminate.
  - eapply Happ; [reflexivity|]. eapply IH; eauto. eapply Hlen; reflexivity.
  - eapply Happ; [reflexivity|]. eapply IH; eauto. eapply Hlen; reflexivity.
  - eapply Happ; [reflexivity|]. eapply IH; eauto. eapply Hlen; reflexivity.
Qed.

Lemma vars_head ns s : written_vars ns s -> exists r y, s = r :: y /\ head_ok r = true /\ r <> C """" /\ r <> C "[" /\ isdigit r = false.
Proof.
  destruct 1; [eapply target_head; eauto|].
  match goal with H : written_target _ _ |- _ => apply target_head in H; destruct H as [r [y [-> H]]] end.
  exists r, (y ++ w ++ sn). auto.
Qed.
Lemma head_good s : (exists r y, s = r :: y /\ head_ok r = true /\ r <> C """" /\ r <> C "[" /\ isdigit r = false) -> good_head s.
Proof. intros [r [y [-> [H _]]]]. exists r, y. auto. Qed.

Lemma vars_stop n w sn c k t d : gap1 w -> head_not (fun r => r =? C "<") sn -> good_head sn -> spells (w ++ sn) c k -> wf c ->
  tget c = Ok (t, d) -> lv_first (tk t) = true -> stop false n 1 c.
Proof.
  intros [Hw Hw1] Hh Hg Sp Wf Ht Hf. split; [discriminate|]. split; [eapply gap_fits; eauto|]. exists t, d. split; auto.
  destruct (head_skip _ _ _ _ Hg Hw Sp) as [c1 [r [Hs [Sw [Sn [Hp [Hr _]]]]]]].
  destruct (tk t) eqn:E; try discriminate; cbn [lev]; try lia. destruct o, m; try discriminate.
  exfalso. destruct (head_token c t d (C "<") [] Ht Wf) as [Hq _]; [rewrite E; reflexivity|]. rewrite Hs, Hp in Hq. injection Hq as E1.
  destruct Hg as [x [y [-> _]]]. cbn [hd head_not] in *. subst. discriminate.
Qed.

Lemma vars_loop cm ns s : written_vars ns s -> forall w c k m, gap w -> spells (w ++ s) c k -> wf c -> ends false cm k -> (clen c < m)%nat ->
  (exists vs, lvalues_loop m c = Ok (vs, skip_white k) /\ Forall2 shows vs ns) /\ exists t d, tget c = Ok (t, d) /\ lv_first (tk t) = true.
Proof.
  induction 1 as [n s Hn Hv|n s w1 ns sn Hn Hv Hw1 Hh Hns IH]; intros w c k m Hw Sp Wf Hk Hm.
  - pose proof (target_head _ _ Hn) as Hth. pose proof (head_good _ Hth) as Hg.
    destruct (head_skip _ _ _ _ Hg Hw Sp) as [c1 [r [Hs [Sw [Sn [Hp [Hr Hok]]]]]]]. pose proof (spells_wf _ _ _ Sw Wf) as Wf1.
    assert (Hls : lstop n k) by (eapply ends_lstop; eauto; eapply spells_wf; eauto).
    destruct (read_lvalue n s [] c1 k Hn Hv eq_refl Sn Wf1 Hls) as [v [E Sh]].
    destruct (read_target n s [] c1 k Hn eq_refl Sn Wf1 Hls) as [_ Ht].
    assert (L : (clen k < clen c)%nat) by (eapply spells_lt; [exact Sp|]; destruct Hg as [? [? [-> _]]]; destruct w; discriminate).
    split; [|rewrite <- tget_skip, Hs; exact Ht].
    exists [v]. split; [|auto]. destruct m as [|[|m]]; [lia|lia|]. cbn [lvalues_loop]. rewrite Hs, Hp.
    rewrite head_not_end by auto. assert (Hb : (r =? C """") = false).
    { destruct Hth as [x [y [-> [_ [H _]]]]]. cbn [hd] in Hr. subst x. apply N.eqb_neq. auto. }
    rewrite Hb, E. cbn [bind]. destruct (ends_skip _ _ _ Hk) as [E1 E2]. rewrite E1. reflexivity.
  - pose proof (target_head _ _ Hn) as Hth. pose proof (head_good _ Hth) as Hg. pose proof (head_good _ (vars_head _ _ Hns)) as Hg2.
    rewrite app_assoc in Sp. apply spells_split in Sp. destruct Sp as [k1 [Sa Sb]]. pose proof (spells_wf _ _ _ Sa Wf) as Wk1.
    assert (L : (clen k1 < clen c)%nat) by (eapply spells_lt; [exact Sa|]; destruct Hg as [? [? [-> _]]]; destruct w; discriminate).
    destruct m as [|m]; [lia|].
    destruct (IH w1 k1 k m (proj1 Hw1) Sb Wk1 Hk ltac:(lia)) as [[vs [E2 Sh2]] [t [d [Ht Hst]]]].
    pose proof (stop_lstop _ _ _ (vars_stop n w1 sn k1 k t d Hw1 Hh Hg2 Sb Wk1 Ht Hst)) as Hls.
    destruct (head_skip _ _ _ _ Hg Hw Sa) as [c1 [r [Hs [Sw [Sn [Hp [Hr Hok]]]]]]]. pose proof (spells_wf _ _ _ Sw Wf) as Wf1.
    destruct (read_lvalue n s [] c1 k1 Hn Hv eq_refl Sn Wf1 Hls) as [v [E Sh]].
    destruct (read_target n s [] c1 k1 Hn eq_refl Sn Wf1 Hls) as [_ Ht1].
    split; [|rewrite <- tget_skip, Hs; exact Ht1].
    exists (v :: vs). split; [|auto]. cbn [lvalues_loop]. rewrite Hs, Hp.
    rewrite head_not_end by auto. assert (Hb : (r =? C """") = false).
    { destruct Hth as [x [y [-> [_ [H _]]]]]. cbn [hd] in Hr. subst x. apply N.eqb_neq. auto. }
    rewrite Hb, E. cbn [bind]. rewrite E2. reflexivity.
Qed.

Lemma target_expr n s : written_target n s -> written false 1 n s /\ rightmost n = n.
Proof. intros [H [H1 _]]. split; [eapply written_le; [| |exact H]; lia|apply rightmost_target; auto]. Qed.

Lemma read_vars cm ns s w c k : written_vars ns s -> gap w -> spells (w ++ s) c k -> wf c -> ends false cm k ->
  exists vs, parse_lvaluelist c = Ok (vs, skip_white k) /\ Forall2 shows vs ns.
Proof.
  intros H Hw Sp Wf Hk. unfold parse_lvaluelist. inversion H as [n s' Hn Hv|n s' w1 ns' sn Hn Hv Hw1 Hh Hns]; subst.
  - destruct (target_expr _ _ Hn) as [He Hr].
    destruct (read_expr false n s w c k He Hw Sp Wf) as [v [E Sh]]; [eapply ends_stop; eauto; eapply spells_wf; eauto|].
    rewrite E. cbn [bind lvalues_loop]. destruct (ends_skip _ _ _ Hk) as [E1 E2]. rewrite E1. cbn [bind]. eauto.
  - destruct (target_expr _ _ Hn) as [He Hr]. pose proof (head_good _ (vars_head _ _ Hns)) as Hg2.
    rewrite app_assoc in Sp. apply spells_split in Sp. destruct Sp as [k1 [Sa Sb]]. pose proof (spells_wf _ _ _ Sa Wf) as Wk1.
    destruct (vars_loop cm ns' sn Hns w1 k1 k (S (clen k1)) (proj1 Hw1) Sb Wk1 Hk ltac:(lia)) as [[vs [E2 Sh2]] [t [d [Ht Hst]]]].
    destruct (read_expr false n s' w c k1 He Hw Sa Wf) as [v [E Sh]]; [eapply vars_stop; eauto|].
    rewrite E. cbn [bind]. rewrite E2. cbn [bind]. eauto.
Qed.

(** * Left-hand sides *)

Lemma lpunct n x k w c d : punct x = Some k -> lv_end true false k = true -> k <> KSqOpen -> In x (32 :: 9 :: T "()[],-}") -> gap w -> spells (w ++ [x]) c d ->
  lstop n c /\ exists q, tget c = Ok (mkTok k [x] q, d).
Proof.
  intros Hp Hl Hk Hx Hw Sp. destruct (punct_get _ _ _ _ _ Hp Hw Sp) as [q Ht]. split; [|eauto]. split.
  - apply spells_split in Sp. destruct Sp as [m [Sw Sx]]. eapply gap_peek; eauto. apply spells_head in Sx. destruct Sx as [? [? [-> _]]].
    cbn [peek ch_of_cell fits]. rewrite sticks_not; auto.
  - exists (mkTok k [x] q), d. split; auto. cbn [tk]. destruct k; auto; try discriminate; congruence.
Qed.
Lemma lsemi n w c d : gap w -> spells (w ++ T ";") c d -> lstop n c /\ exists q, tget c = Ok (mkTok KSemicolon (T ";") q, d).
Proof.
  intros Hw Sp. apply spells_split in Sp. destruct Sp as [m [Sw Sx]]. apply spells_head in Sx. destruct Sx as [p [t [-> Sx]]].
  apply spells_nil in Sx. subst t.
  assert (Ht : tget c = Ok (mkTok KSemicolon (T ";") p, d)).
  { unfold tget. rewrite (skip_gap w c _ Hw Sw) by reflexivity. reflexivity. }
  split; [|eauto]. split; [eapply gap_peek; eauto; cbn [peek ch_of_cell fits]; rewrite sticks_end; auto; cbn; auto|]. exists (mkTok KSemicolon (T ";") p), d. auto.
Qed.

Lemma read_targets ns r s : written_targets ns r s -> forall c k m, spells s c k -> wf c -> (clen c < m)%nat ->
  exists vs r', lhs_loop m c = Ok (vs, r', k) /\ Forall2 shows vs ns /\ shows_opt r' r.
Proof.
  induction 1 as [n s w1 w2 Hn Hv Hw1 Hw2|n s w1 w2 ns r sn Hn Hv Hw1 Hw2 Hns IH|n s w1 w2 n' s' w3 w4 Hn Hv Hn' Hv' Hw1 Hw2 Hw3 Hw4];
    intros c k m Sp Wf Hm; (destruct m as [|m]; [lia|]); rewrite app_assoc in Sp; apply spells_split in Sp; destruct Sp as [c1 [S1 Sp]];
    pose proof (spells_wf _ _ _ S1 Wf) as Wf1; cbn [lhs_loop].
  - destruct (lpunct n (C "]") KSqClose w2 c1 k eq_refl eq_refl ltac:(discriminate) ltac:(cbn; auto 12) Hw2 Sp) as [Hs [q Ht]].
    destruct (read_lvalue n s w1 c c1 Hn Hv Hw1 S1 Wf Hs) as [v [E Sh]]. rewrite E. cbn [bind]. rewrite Ht. cbn [bind tk].
    do 2 eexists. split; [reflexivity|]. cbn. auto.
  - rewrite app_assoc in Sp. apply spells_split in Sp. destruct Sp as [c2 [S2 Sp]]. pose proof (spells_wf _ _ _ S2 Wf1) as Wf2.
    destruct (lpunct n (C ",") KComma w2 c1 c2 eq_refl eq_refl ltac:(discriminate) ltac:(cbn; auto 12) Hw2 S2) as [Hs [q Ht]].
    destruct (read_lvalue n s w1 c c1 Hn Hv Hw1 S1 Wf Hs) as [v [E Sh]]. rewrite E. cbn [bind]. rewrite Ht. cbn [bind tk].
    pose proof (spells_le _ _ _ S1). assert (clen c2 < clen c1)%nat by (eapply spells_lt; [exact S2|destruct w2; discriminate]).
    destruct (IH c2 k m Sp Wf2 ltac:(lia)) as [vs [r' [E2 [Sh2 Sh3]]]]. rewrite E2. cbn [bind]. eauto 8.
  - rewrite app_assoc in Sp. apply spells_split in Sp. destruct Sp as [c2 [S2 Sp]]. pose proof (spells_wf _ _ _ S2 Wf1) as Wf2.
    rewrite app_assoc in Sp. apply spells_split in Sp. destruct Sp as [c3 [S3 Sp]].
    destruct (lsemi n w2 c1 c2 Hw2 S2) as [Hs [q Ht]].
    destruct (read_lvalue n s w1 c c1 Hn Hv Hw1 S1 Wf Hs) as [v [E Sh]]. rewrite E. cbn [bind]. rewrite Ht. cbn [bind tk].
    destruct (lpunct n' (C "]") KSqClose w4 c3 k eq_refl eq_refl ltac:(discriminate) ltac:(cbn; auto 12) Hw4 Sp) as [Hs3 [q3 Ht3]].
    destruct (read_lvalue n' s' w3 c2 c3 Hn' Hv' Hw3 S3 Wf2 Hs3) as [v' [E' Sh']]. rewrite E'. cbn [bind]. rewrite Ht3. cbn [bind tk].
    change (tok_eqb KSqClose KSqClose) with true. cbv iota. do 2 eexists. split; [reflexivity|]. cbn. auto.
Qed.

(** The operators after a left-hand side. *)
Lemma op_lstop n w op c d : In op (T "in" :: T "=<<" :: assign_ops) -> gap w -> spells (w ++ op) c d -> wf c -> follows n w op -> rightmost n = n -> lstop n c.
Proof.
  intros Hop Hw Sp Wf Hf Hr. split.
  - rewrite <- Hr. eapply follows_fits; eauto. intros ->. cbn in Hop. repeat (destruct Hop as [Hop|Hop]; [discriminate|]). contradiction.
  - apply spells_split in Sp. destruct Sp as [m [Sw Sx]]. pose proof (spells_wf _ _ _ Sw Wf) as Wm.
    assert (Hsk : ch_in iswhite (peek m) = false -> skip_white c = m) by (apply skip_gap with (w := w); auto).
    assert (Hm : skip_white c = m).
    { apply Hsk. cbn [In assign_ops] in Hop. repeat (destruct Hop as [<-|Hop]; [apply spells_head in Sx; destruct Sx as [? [? [-> _]]]; reflexivity|]). contradiction. }
    clear Hsk. cut (exists t d0, tget m = Ok (t, d0) /\ lv_end (ch_in iswhite (peek c)) (dot_op n c d0) (tk t) = true).
    { intros [t [d0 [H1 H2]]]. exists t, d0. split; auto. rewrite <- tget_skip, Hm. exact H1. }
    cbn [In assign_ops] in Hop.
    destruct Hop as [<-|Hop].
    { apply spells_head in Sx. destruct Sx as [p [t [-> Sx]]]. destruct (word_cases _ _ _ Wm (eq_refl : isnamec1 (C "i") = true)) as [tt [d1 [G H]]].
      exists tt, d1. split; [exact G|]. destruct H as [H|[o [m [? [? [E _]]]]]]; [|rewrite E; reflexivity].
      unfold get2_ident in H. destruct (read_name _). injection H as <- _. reflexivity. }
    destruct Hop as [<-|Hop].
    { apply spells_head in Sx. destruct Sx as [p [t [-> Sx]]]. apply spells_head in Sx. destruct Sx as [p1 [t1 [-> Sx]]]. do 2 eexists. split; [reflexivity|]. reflexivity. }
    destruct Hop as [<-|Hop].
    { apply spells_head in Sx. destruct Sx as [p [t [-> Sx]]]. do 2 eexists. split; [reflexivity|]. reflexivity. }
    destruct Hop as [<-|Hop].
    { apply spells_head in Sx. destruct Sx as [p [t [-> Sx]]]. apply spells_head in Sx. destruct Sx as [p1 [t1 [-> Sx]]]. do 2 eexists. split; [reflexivity|]. reflexivity. }
    destruct Hop as [<-|Hop].
    { apply spells_head in Sx. destruct Sx as [p [t [-> Sx]]]. apply spells_head in Sx. destruct Sx as [p1 [t1 [-> Sx]]]. do 2 eexists. split; [reflexivity|].
      cbn [tk lv_end]. unfold dot_op. cbn [peek ch_of_cell ch_in]. rewrite orb_true_r. reflexivity. }
    destruct Hop as [<-|Hop].
    { apply spells_head in Sx. destruct Sx as [p [t [-> Sx]]]. apply spells_head in Sx. destruct Sx as [p1 [t1 [-> Sx]]].
      apply spells_head in Sx. destruct Sx as [p2 [t2 [-> Sx]]]. do 2 eexists. split; [reflexivity|]. reflexivity. }
    do 3 (destruct Hop as [<-|Hop]; [apply spells_head in Sx; destruct Sx as [p [t [-> Sx]]]; do 2 eexists; split; [reflexivity|]; reflexivity|]).
    destruct Hop as [<-|[]]. apply spells_head in Sx. destruct Sx as [p [t [-> Sx]]]. apply spells_nil in Sx. subst t.
    change (exists t d0, (let* x := p_ 1 (Cons (R (C "=")) p d) in
      if ch_is x (C "=") then tok_cmp OEq 2 (T "==") (Cons (R (C "=")) p d)
      else if ch_is x (C "~") then tok_cmp OMatch 2 (T "=~") (Cons (R (C "=")) p d)
      else tok_fix KEq (T "=") (Cons (R (C "=")) p d)) = Ok (t, d0) /\ lv_end (ch_in iswhite (peek c)) (dot_op n c d0) (tk t) = true).
    rewrite p_S, p_0 by auto. cbn [bind].
    assert (Hc : forall o r p' u, d = Cons (R r) p' u -> exists t d0, tok_cmp o 2 (T "=" ++ [r]) (Cons (R (C "=")) p d) = Ok (t, d0) /\ lv_end (ch_in iswhite (peek c)) (dot_op n c d0) (tk t) = true).
    { intros o r p' u E. subst d. unfold tok_cmp. rewrite (p_spells 2 (T "=" ++ [r]) _ u) by (cbn; auto). cbn [bind].
      destruct (ch_is (peek u) (C "?")) eqn:E1; [|destruct (ch_is (peek u) (C "#")) eqn:E2].
      - apply ch_is_peek in E1. destruct E1 as [? [? ->]]. do 2 eexists. split; reflexivity.
      - apply ch_is_peek in E2. destruct E2 as [? [? ->]]. do 2 eexists. split; reflexivity.
      - do 2 eexists. split; reflexivity. }
    destruct (ch_is (peek d) (C "=")) eqn:E1; [|destruct (ch_is (peek d) (C "~")) eqn:E2].
    + apply ch_is_peek in E1. destruct E1 as [? [? E1]]. eapply Hc. exact E1.
    + apply ch_is_peek in E2. destruct E2 as [? [? E2]]. eapply Hc. exact E2.
    + do 2 eexists. split; reflexivity.
Qed.

Lemma read_lhs (ok : node -> Prop) one w next l ls r s c k k2 :
  (forall n s c k, written_target n s -> ok n -> spells s c k -> wf c -> lstop n k -> exists v, one c = Ok (v, k) /\ shows v n) ->
  written_lhs ok w next l ls r s -> In next (T "in" :: T "=<<" :: assign_ops) -> gap w -> spells s c k -> spells (w ++ next) k k2 -> wf c ->
  exists l' ls' r', parse_lhs one c = Ok (l', ls', r', k) /\ shows_opt l' l /\ Forall2 shows ls' ls /\ shows_opt r' r.
Proof.
  intros Hone H Hnx Hw Sp Sk Wf. unfold parse_lhs. inversion H as [n s' Hn Hok Hfo|ns r' s' Hns]; subst.
  - assert (Hls : lstop n k) by (eapply op_lstop; eauto; [eapply spells_wf; eauto|apply (target_expr n s); auto]).
    destruct (read_target n s [] c k Hn eq_refl Sp Wf Hls) as [_ [t [d [Ht Hf]]]]. rewrite Ht. cbn [bind].
    assert (Hq : tok_eqb (tk t) KSqOpen = false) by (destruct (tk t); try discriminate Hf; try reflexivity; destruct o; try discriminate Hf; destruct m; try discriminate Hf; reflexivity). rewrite Hq.
    destruct (Hone n s c k Hn Hok Sp Wf Hls) as [v [E Sh]]. rewrite E. cbn [bind]. exists (Some v), [], None. cbn. auto.
  - apply spells_split in Sp. destruct Sp as [c1 [S1 S2]]. destruct (punct_get (C "[") KSqOpen [] c c1 eq_refl eq_refl S1) as [q Ht].
    rewrite Ht. cbn [bind tk]. change (tok_eqb KSqOpen KSqOpen) with true. cbv iota.
    destruct (read_targets _ _ _ Hns c1 k (S (clen c1)) S2 (spells_wf _ _ _ S1 Wf) ltac:(lia)) as [vs [r' [E [Sh1 Sh2]]]].
    rewrite E. cbn [bind]. exists None, vs, r'. cbn. auto.
Qed.

(** * Parameters *)

Lemma gap_class f w s c d : gap w -> (forall r, iswhite r = true -> f r = false) -> head_not f s -> s <> [] -> spells (w ++ s) c d -> ch_in f (peek c) = false.
Proof.
  intros Hw Hf Hs Hn Sp. destruct w as [|r w].
  - destruct s as [|r s]; [congruence|]. apply spells_head in Sp. destruct Sp as [? [? [-> _]]]. exact Hs.
  - apply spells_head in Sp. destruct Sp as [? [? [-> _]]]. cbn. apply Hf. unfold gap in Hw. cbn [forallb] in Hw. apply andb_true_iff in Hw. tauto.
Qed.
Lemma white_not_namec r : iswhite r = true -> isnamec r = false.
Proof. unfold iswhite. intros H. apply orb_true_iff in H. destruct H as [H|H]; apply N.eqb_eq in H; subst; reflexivity. Qed.
Lemma white_not_alpha r : iswhite r = true -> isalpha r = false.
Proof. unfold iswhite. intros H. apply orb_true_iff in H. destruct H as [H|H]; apply N.eqb_eq in H; subst; reflexivity. Qed.
Lemma white_not_wordc r : iswhite r = true -> iswordc r = false.
Proof. unfold iswhite. intros H. apply orb_true_iff in H. destruct H as [H|H]; apply N.eqb_eq in H; subst; reflexivity. Qed.

Lemma eq_token w c d : gap w -> spells (w ++ T "=") c d -> wf c -> ch_in (fun r => mem_N r (T "=~")) (peek d) = false ->
  exists q, tget c = Ok (mkTok KEq (T "=") q, d).
Proof.
  intros Hw Sp Wf Hd. apply spells_split in Sp. destruct Sp as [m [Sw Sx]]. pose proof (spells_wf _ _ _ Sw Wf) as Wm.
  apply spells_head in Sx. destruct Sx as [p [t [-> Sx]]]. apply spells_nil in Sx. subst t.
  exists p. unfold tget. rewrite (skip_gap w c _ Hw Sw) by reflexivity.
  change (get2 (Cons (R (C "=")) p d)) with (let* x := p_ 1 (Cons (R (C "=")) p d) in
      if ch_is x (C "=") then tok_cmp OEq 2 (T "==") (Cons (R (C "=")) p d)
      else if ch_is x (C "~") then tok_cmp OMatch 2 (T "=~") (Cons (R (C "=")) p d)
      else tok_fix KEq (T "=") (Cons (R (C "=")) p d)).
  rewrite p_S, p_0 by auto. cbn [bind].
  assert (H1 : ch_is (peek d) (C "=") = false /\ ch_is (peek d) (C "~") = false).
  { destruct (peek d) as [| |x]; auto. cbn in *. lia. }
  destruct H1 as [-> ->]. reflexivity.
Qed.

Lemma param_named used s : ~ In s used -> mem_text s used = false.
Proof.
  intros H. destruct (mem_text s used) eqn:E; auto. exfalso. apply H. apply mem_text_In. exact E.
Qed.
Lemma param_bad used s : parameter used s -> negb (isargname s) || text_eqb s (T "firstline") || text_eqb s (T "lastline") = false /\ mem_text s used = false.
Proof.
  intros [Ha [Hi Hu]]. split; [|apply param_named; auto]. rewrite Ha. cbn [negb orb].
  apply orb_false_iff. split; (destruct (text_eqb _ _) eqn:E; [|reflexivity]; apply text_eqb_eq in E; subst; exfalso; apply Hi; cbn; auto).
Qed.

Lemma read_fparams must used ps ds s : written_fparams must used ps ds s -> forall c k m, spells s c k -> wf c -> (clen c < m)%nat ->
  (ps = [] -> ds = [] /\ exists q, tget c = Ok (mkTok KPClose (T ")") q, k)) /\
  (ps <> [] -> (exists t d, tget c = Ok (t, d) /\ tok_eqb (tk t) KPClose = false) /\
     exists vs ds', params_loop m used must c = Ok (vs, ds', k) /\ Forall2 same_name vs ps /\ Forall2 shows ds' ds).
Proof.
  induction 1 as [must used w Hw|must used p w1 w2 Hw1 Hw2|used p s w1 w2 Hp Hw1 Hw2
    |must used p s v sv w1 w2 w3 w4 Hp Hv Hw1 Hw2 Hw3 Hw4|used p s w1 ps ds sp Hp Hw1 Hps IH
    |must used p s v sv w1 w2 w3 ps ds sp Hp Hv Hw1 Hw2 Hw3 Hps IH]; intros c k m Sp Wf Hm.
  - split; [|congruence]. intros _. split; auto. eapply punct_get; eauto.
  - split; [discriminate|]. intros _. destruct m as [|m]; [lia|].
    rewrite app_assoc in Sp. apply spells_split in Sp. destruct Sp as [c1 [S1 Sp]]. apply spells_split in S1. destruct S1 as [c0 [S0 S1]].
    destruct (dots_token w1 c c0 c1 Hw1 S0 S1 (spells_wf _ _ _ S0 Wf)) as [q Ht].
    destruct (punct_get (C ")") KPClose w2 c1 k eq_refl Hw2 Sp) as [q2 Ht2].
    split; [rewrite Ht; eauto|]. cbn [params_loop]. rewrite Ht. cbn [bind tk]. rewrite Ht2. cbn [bind tk tv tp].
    change (tok_eqb KPClose KPClose) with true. cbv iota. do 2 eexists. split; [reflexivity|]. split; constructor; [|constructor].
    do 3 eexists. split; reflexivity.
  - split; [discriminate|]. intros _. destruct m as [|m]; [lia|].
    rewrite app_assoc in Sp. apply spells_split in Sp. destruct Sp as [c1 [S1 Sp]]. apply spells_split in S1. destruct S1 as [c0 [S0 S1]].
    pose proof (spells_wf _ _ _ S0 Wf) as Wf0.
    destruct (arg_token w1 s c c0 c1 (proj1 Hp)) as [q Ht]; auto.
    { intros Hi. apply (proj1 (proj2 Hp)). cbn in *. tauto. }
    { eapply gap_class with (w := w2) (s := T ")"); eauto; [apply white_not_namec|reflexivity|discriminate]. }
    destruct (punct_get (C ")") KPClose w2 c1 k eq_refl Hw2 Sp) as [q2 Ht2].
    split; [rewrite Ht; eauto|]. cbn [params_loop]. rewrite Ht. cbn [bind tk tv tp]. destruct (param_bad _ _ Hp) as [-> ->]. rewrite Ht2. cbn [bind tk].
    change (tok_eqb KPClose KEq) with false. cbv iota. cbn [bind]. rewrite p_0. cbn [bind]. unfold tpeek. rewrite Ht2. cbn [bind tk].
    change (tok_eqb KPClose KComma) with false. destruct (ch_in iswhite (peek c1)); cbn [bind]; do 2 eexists; (split; [reflexivity|]); (split; constructor; [|constructor]);
    do 3 eexists; split; reflexivity.
  - split; [discriminate|]. intros _. destruct m as [|m]; [lia|].
    rewrite app_assoc in Sp. apply spells_split in Sp. destruct Sp as [c1 [S1 Sp]]. apply spells_split in S1. destruct S1 as [c0 [S0 S1]].
    rewrite app_assoc in Sp. apply spells_split in Sp. destruct Sp as [c2 [S2 Sp]]. rewrite app_assoc in Sp. apply spells_split in Sp. destruct Sp as [c3 [S3 Sp]].
    pose proof (spells_wf _ _ _ S0 Wf) as Wf0. pose proof (spells_wf _ _ _ S1 Wf0) as Wf1. pose proof (spells_wf _ _ _ S2 Wf1) as Wf2.
    destruct (arg_token w1 s c c0 c1 (proj1 Hp)) as [q Ht]; auto.
    { intros Hi. apply (proj1 (proj2 Hp)). cbn in *. tauto. }
    { eapply gap_class with (w := w2) (s := T "="); eauto; [apply white_not_namec|reflexivity|discriminate]. }
    destruct (eq_token w2 c1 c2 Hw2 S2 Wf1) as [q1 Ht1].
    { pose proof (written_head _ _ _ _ Hv) as Hg. eapply gap_class with (w := w3) (s := sv); eauto.
      - intros r Hr. unfold iswhite in Hr. apply orb_true_iff in Hr. destruct Hr as [Hr|Hr]; apply N.eqb_eq in Hr; subst; reflexivity.
      - destruct Hg as [x [y [-> Hx]]]. cbn [head_not]. unfold head_ok, never_head in Hx. destruct (mem_N x (T "=~")) eqn:E; auto.
        cbn [mem_N existsb] in *. exfalso. clear - Hx E. lia.
      - destruct Hg as [x [y [-> Hx]]]. discriminate. }
    destruct (punct_get (C ")") KPClose w4 c3 k eq_refl Hw4 Sp) as [q2 Ht2].
    destruct (read_expr false v sv w3 c2 c3 Hv Hw3 S3 Wf2) as [v' [E Sh]].
    { apply (stop_punct _ (C ")") KPClose w4 c3 k); [reflexivity|auto|auto|apply follows_any; cbn; auto 12|intros; cbn; lia]. }
    split; [rewrite Ht; eauto|]. cbn [params_loop]. rewrite Ht. cbn [bind tk tv tp]. destruct (param_bad _ _ Hp) as [-> ->]. rewrite Ht1. cbn [bind tk].
    change (tok_eqb KEq KEq) with true. cbv iota. rewrite E. cbn [bind]. rewrite p_0. cbn [bind]. unfold tpeek. rewrite Ht2. cbn [bind tk].
    change (tok_eqb KPClose KComma) with false. destruct (ch_in iswhite (peek c3)); cbn [bind]; do 2 eexists; (split; [reflexivity|]); (split; constructor; [|constructor| |constructor]); auto;
    do 3 eexists; split; reflexivity.
  - split; [discriminate|]. intros _. destruct m as [|m]; [lia|].
    rewrite app_assoc in Sp. apply spells_split in Sp. destruct Sp as [c1 [S1 Sp]]. pose proof S1 as S01. apply spells_split in S1. destruct S1 as [c0 [S0 S1]].
    apply spells_split in Sp. destruct Sp as [c2 [S2 Sp]].
    pose proof (spells_wf _ _ _ S0 Wf) as Wf0. pose proof (spells_wf _ _ _ S1 Wf0) as Wf1. pose proof (spells_wf _ _ _ S2 Wf1) as Wf2.
    assert (Hpk : peek c1 = CR (C ",")) by (pose proof S2 as X; apply spells_head in X; destruct X as [? [? [-> _]]]; reflexivity).
    destruct (arg_token w1 s c c0 c1 (proj1 Hp)) as [q Ht]; auto.
    { intros Hi. apply (proj1 (proj2 Hp)). cbn in *. tauto. }
    { rewrite Hpk. reflexivity. }
    destruct (punct_get (C ",") KComma [] c1 c2 eq_refl eq_refl S2) as [q2 Ht2].
    split; [rewrite Ht; eauto|]. cbn [params_loop]. rewrite Ht. cbn [bind tk tv tp]. destruct (param_bad _ _ Hp) as [-> ->]. rewrite Ht2. cbn [bind tk].
    change (tok_eqb KComma KEq) with false. cbv iota. cbn [bind]. rewrite p_0, Hpk. cbn [bind ch_in]. change (iswhite (C ",")) with false. cbn [bind].
    rewrite Ht2. cbn [bind tk].
    pose proof (spells_le _ _ _ S01). assert (clen c2 < clen c1)%nat by (eapply spells_lt; [exact S2|discriminate]).
    destruct (IH c2 k m Sp Wf2 ltac:(lia)) as [IH1 IH2]. destruct ps as [|p' ps].
    + destruct (IH1 eq_refl) as [-> [q3 Ht3]]. rewrite Ht3. cbn [bind tk]. change (tok_eqb KPClose KPClose) with true. cbv iota.
      do 2 eexists. split; [reflexivity|]. split; constructor; [|constructor]. do 3 eexists; split; reflexivity.
    + destruct (IH2 ltac:(discriminate)) as [[t3 [d3 [Ht3 Hn3]]] [vs [ds' [E [Sh1 Sh2]]]]]. rewrite Ht3. cbn [bind]. rewrite Hn3.
      cbn [is_nil negb orb]. rewrite E. cbn [bind]. do 2 eexists. split; [reflexivity|]. split; auto. constructor; auto. do 3 eexists; split; reflexivity.
  - split; [discriminate|]. intros _. destruct m as [|m]; [lia|].
    rewrite app_assoc in Sp. apply spells_split in Sp. destruct Sp as [c1 [S1 Sp]]. pose proof S1 as S01. apply spells_split in S1. destruct S1 as [c0 [S0 S1]].
    rewrite app_assoc in Sp. apply spells_split in Sp. destruct Sp as [c2 [S2 Sp]]. rewrite app_assoc in Sp. apply spells_split in Sp. destruct Sp as [c3 [S3 Sp]].
    apply spells_split in Sp. destruct Sp as [c4 [S4 Sp]].
    pose proof (spells_wf _ _ _ S0 Wf) as Wf0. pose proof (spells_wf _ _ _ S1 Wf0) as Wf1. pose proof (spells_wf _ _ _ S2 Wf1) as Wf2.
    pose proof (spells_wf _ _ _ S3 Wf2) as Wf3. pose proof (spells_wf _ _ _ S4 Wf3) as Wf4.
    assert (Hpk : peek c3 = CR (C ",")) by (pose proof S4 as X; apply spells_head in X; destruct X as [? [? [-> _]]]; reflexivity).
    destruct (arg_token w1 s c c0 c1 (proj1 Hp)) as [q Ht]; auto.
    { intros Hi. apply (proj1 (proj2 Hp)). cbn in *. tauto. }
    { eapply gap_class with (w := w2) (s := T "="); eauto; [apply white_not_namec|reflexivity|discriminate]. }
    destruct (eq_token w2 c1 c2 Hw2 S2 Wf1) as [q1 Ht1].
    { pose proof (written_head _ _ _ _ Hv) as Hg. eapply gap_class with (w := w3) (s := sv); eauto.
      - intros r Hr. unfold iswhite in Hr. apply orb_true_iff in Hr. destruct Hr as [Hr|Hr]; apply N.eqb_eq in Hr; subst; reflexivity.
      - destruct Hg as [x [y [-> Hx]]]. cbn [head_not]. unfold head_ok, never_head in Hx. destruct (mem_N x (T "=~")) eqn:E; auto.
        cbn [mem_N existsb] in *. exfalso. clear - Hx E. lia.
      - destruct Hg as [x [y [-> Hx]]]. discriminate. }
    destruct (punct_get (C ",") KComma [] c3 c4 eq_refl eq_refl S4) as [q2 Ht2].
    destruct (read_expr false v sv w3 c2 c3 Hv Hw3 S3 Wf2) as [v' [E Sh]].
    { apply (stop_punct _ (C ",") KComma [] c3 c4); [reflexivity|reflexivity|auto|apply follows_any; cbn; auto 12|intros; cbn; lia]. }
    split; [rewrite Ht; eauto|]. cbn [params_loop]. rewrite Ht. cbn [bind tk tv tp]. destruct (param_bad _ _ Hp) as [-> ->]. rewrite Ht1. cbn [bind tk].
    change (tok_eqb KEq KEq) with true. cbv iota. rewrite E. cbn [bind]. rewrite p_0, Hpk. cbn [bind ch_in]. change (iswhite (C ",")) with false. cbn [bind].
    rewrite Ht2. cbn [bind tk].
    pose proof (spells_le _ _ _ S01). pose proof (spells_le _ _ _ S2). pose proof (spells_le _ _ _ S3). assert (clen c4 < clen c3)%nat by (eapply spells_lt; [exact S4|discriminate]).
    destruct (IH c4 k m Sp Wf4 ltac:(lia)) as [IH1 IH2]. destruct ps as [|p' ps].
    + destruct (IH1 eq_refl) as [-> [q3 Ht3]]. rewrite Ht3. cbn [bind tk]. change (tok_eqb KPClose KPClose) with true. cbv iota.
      do 2 eexists. split; [reflexivity|]. split; constructor; auto; do 3 eexists; split; reflexivity.
    + destruct (IH2 ltac:(discriminate)) as [[t3 [d3 [Ht3 Hn3]]] [vs [ds' [E3 [Sh1 Sh2]]]]]. rewrite Ht3. cbn [bind]. rewrite Hn3.
      cbn [is_nil negb]. rewrite orb_true_r. rewrite E3. cbn [bind]. do 2 eexists. split; [reflexivity|]. split; constructor; auto. do 3 eexists; split; reflexivity.
Qed.

Lemma ends_class f e cm k : ends e cm k -> (forall r, iswhite r = true -> f r = false) -> f (C "|") = false -> f (C """") = false -> ch_in f (peek k) = false.
Proof.
  intros [w [d [Hw [Sp [_ H]]]]] Hf Hb Hq. destruct w as [|r w].
  - apply spells_nil in Sp. subst d. destruct H as [[p [t ->]]|[[_ [p [t [-> _]]]]|[_ [_ [p [t ->]]]]]]; auto.
  - apply spells_head in Sp. destruct Sp as [? [? [-> _]]]. cbn. apply Hf. unfold gap in Hw. cbn [forallb] in Hw. apply andb_true_iff in Hw. tauto.
Qed.
Lemma ends_at_skip e cm k : ends e cm k -> exists w, gap w /\ spells w k (skip_white k) /\ ch_in iswhite (peek (skip_white k)) = false.
Proof.
  intros [w [d [Hw [Sp [_ H]]]]]. assert (Hd : ch_in iswhite (peek d) = false).
  { destruct H as [[p [t ->]]|[[_ [p [t [-> _]]]]|[_ [_ [p [t ->]]]]]]; auto. }
  exists w. rewrite (skip_gap w k d); auto.
Qed.
Lemma ends_skip_class f e cm k : ends e cm k -> f (C "|") = false -> f (C """") = false -> ch_in f (peek (skip_white k)) = false.
Proof.
  intros [w [d [Hw [Sp [_ H]]]]] Hb Hq. assert (Hd : ch_in iswhite (peek d) = false).
  { destruct H as [[p [t ->]]|[[_ [p [t [-> _]]]]|[_ [_ [p [t ->]]]]]]; auto. }
  rewrite (skip_gap w k d Hw Sp Hd). destruct H as [[p [t ->]]|[[_ [p [t [-> _]]]]|[_ [_ [p [t ->]]]]]]; auto.
Qed.

(** * The attributes of a function *)

Lemma attr_word k a a1 : set_attr k a = Some a1 -> some_of isalpha k.
Proof.
  unfold set_attr.
  destruct (text_eqb k (T "range")) eqn:E1; [apply text_eqb_eq in E1; subst; intros _; split; [discriminate|reflexivity]|].
  destruct (text_eqb k (T "abort")) eqn:E2; [apply text_eqb_eq in E2; subst; intros _; split; [discriminate|reflexivity]|].
  destruct (text_eqb k (T "dict")) eqn:E3; [apply text_eqb_eq in E3; subst; intros _; split; [discriminate|reflexivity]|].
  destruct (text_eqb k (T "closure")) eqn:E4; [apply text_eqb_eq in E4; subst; intros _; split; [discriminate|reflexivity]|]. discriminate.
Qed.
Lemma read_attrs a a2 s : written_attrs a a2 s -> forall c k m, spells s c k -> (clen c < m)%nat -> ends false true k ->
  attr_loop m a c = Ok (a2, skip_white k).
Proof.
  induction 1 as [a|a y a1 a2 w s Hy Hw Hs Hws IH]; intros c k m Sp Hm He.
  - apply spells_nil in Sp. subst k. destruct m as [|m]; [lia|]. cbn [attr_loop]. unfold read_alpha.
    rewrite (read_while_exact isalpha [] (skip_white c) (skip_white c)); auto; [reflexivity|]. eapply ends_skip_class; eauto.
  - destruct m as [|m]; [lia|]. pose proof (attr_word _ _ _ Hy) as [Hn Ha].
    apply spells_split in Sp. destruct Sp as [c1 [S1 Sp]]. apply spells_split in Sp. destruct Sp as [c2 [S2 Sp]].
    assert (Hlt : (clen c2 < clen c1)%nat) by (eapply spells_lt; eauto). pose proof (spells_le _ _ _ S1).
    assert (Hc1 : skip_white c = c1).
    { apply (skip_gap w); auto. destruct y as [|r y]; [congruence|]. apply spells_head in S2. destruct S2 as [? [? [-> _]]]. cbn in *.
      apply andb_true_iff in Ha. destruct Ha as [Ha _]. destruct (iswhite r) eqn:E; auto. apply white_not_alpha in E. congruence. }
    assert (Hc2 : ch_in isalpha (peek c2) = false).
    { destruct s as [|r s].
      - apply spells_nil in Sp. subst c2. eapply ends_class; eauto. apply white_not_alpha.
      - apply spells_head in Sp. destruct Sp as [? [? [-> _]]]. exact Hs. }
    specialize (IH c2 k m Sp ltac:(lia) He).
    cbn [attr_loop]. rewrite Hc1. unfold read_alpha. rewrite (read_while_exact isalpha y c1 c2); auto.
    unfold set_attr in Hy. destruct y as [|r y]; [congruence|]. cbn [is_nil].
    repeat match type of Hy with context [text_eqb (r :: y) ?x] => destruct (text_eqb (r :: y) x); [inversion Hy; subst; exact IH|] end. discriminate.
Qed.

(** * The pattern of :catch *)

Lemma pattern_reads d i s j : pattern_text d i s j -> forall c k, spells s c k ->
  pattern_loop d i c = let* '(s', b, k') := pattern_loop d j k in Ok (s ++ s', b, k').
Proof.
  induction 1 as [i|r s i j Hd Hs IH|r s i j Hr Hd Hs IH]; intros c k Sp.
  - apply spells_nil in Sp. subst. destruct (pattern_loop d i k) as [[[? ?] ?]| | |]; reflexivity.
  - apply spells_head in Sp. destruct Sp as [p [t [-> Sp]]]. apply spells_head in Sp. destruct Sp as [p2 [t2 [-> Sp]]].
    cbn [pattern_loop]. assert (E : (92 =? d) && (i =? 0)%Z = false) by lia. rewrite E. change (92 =? 92) with true. cbv iota.
    rewrite (IH _ _ Sp). destruct (pattern_loop d j k) as [[[? ?] ?]| | |]; reflexivity.
  - apply spells_head in Sp. destruct Sp as [p [t [-> Sp]]].
    cbn [pattern_loop]. assert (E : (r =? d) && (i =? 0)%Z = false) by lia. rewrite E. assert (E2 : r =? 92 = false) by lia. rewrite E2.
    rewrite (IH _ _ Sp). destruct (pattern_loop d j k) as [[[? ?] ?]| | |]; reflexivity.
Qed.
Definition catch_arg (c : cursor) : outcome (text * cursor) :=
  if ends_excmds (peek c) then Ok ([], c)
  else match get c with
       | (CR d, c') => let* '(s, _, c'') := parse_pattern d c' in Ok (s, c'')
       | (_, c') => Ok ([], c')
       end.
Lemma catch_delim d : ~ In d (32 :: 9 :: T "|""") -> ends_excmds (CR d) = false /\ iswhite d = false.
Proof. intros H. cbn in H. unfold ends_excmds, iswhite. cbn. lia. Qed.
Lemma read_pattern e pat s c k : written_pattern e pat s -> spells s c k -> ends e true k ->
  exists k', catch_arg (skip_white c) = Ok (pat, k') /\ skip_white k' = skip_white k.
Proof.
  intros H Sp He. inversion H; subst.
  - apply spells_nil in Sp. subst k. exists (skip_white c). split; [|apply skip_white_idem]. unfold catch_arg. rewrite (proj1 (ends_skip _ _ _ He)). reflexivity.
  - destruct (catch_delim _ H0) as [H2 H3]. apply spells_head in Sp. destruct Sp as [p [t [-> Sp]]]. apply spells_split in Sp. destruct Sp as [m [Sp Sd]].
    apply spells_head in Sd. destruct Sd as [p2 [t2 [-> Sd]]]. apply spells_nil in Sd. subst t2.
    exists k. split; auto. rewrite (skip_white_head _ d); auto. unfold catch_arg. cbn [peek ch_of_cell get]. rewrite H2. unfold parse_pattern.
    rewrite (pattern_reads _ _ _ _ H1 _ _ Sp). cbn [pattern_loop]. rewrite N.eqb_refl. cbn. rewrite app_nil_r. reflexivity.
  - destruct (catch_delim _ H0) as [H2 H3]. apply spells_head in Sp. destruct Sp as [p [t [-> Sp]]].
    exists k. split; auto. rewrite (skip_white_head _ d); auto. unfold catch_arg. cbn [peek ch_of_cell get]. rewrite H2. unfold parse_pattern.
    rewrite (pattern_reads _ _ _ _ H1 _ _ Sp). destruct He as [w [d' [_ [Sw [Hw He]]]]]. rewrite (Hw eq_refl) in Sw. apply spells_nil in Sw. subst d'.
    destruct He as [[p2 [t2 ->]]|[[? _]|[? _]]]; try discriminate. cbn. rewrite app_nil_r. reflexivity.
Qed.

(** * Here-documents *)

Definition lit_line (v : vnode) (n : node) : Prop := exists p q s, v = VLit LString p s /\ n = NBasicLit q TSTRING s.

Lemma read_words ks mk s : written_words ks mk s -> forall w c k m, gap w -> spells (w ++ s) c k -> ch_in iswordc (peek k) = false -> (clen c < m)%nat ->
  exists vs, heredoc_words m c = Ok (vs, mk, k) /\ Forall2 lit_line vs ks.
Proof.
  induction 1 as [mk [Hn Ha] Hl|p y ks mk w' s [Hn Ha] Hl Hw' Hks IH]; intros w c k m Hw Sp Hk Hm.
  - destruct m as [|m]; [lia|]. apply spells_split in Sp. destruct Sp as [c1 [S1 Sp]].
    destruct mk as [|r mk]; [congruence|]. cbn [hd] in Hl.
    assert (Hc1 : skip_white c = c1).
    { apply (skip_gap w); auto. pose proof Sp as S2. apply spells_head in S2. destruct S2 as [? [? [-> _]]]. cbn in *.
      apply andb_true_iff in Ha. destruct Ha as [Ha _]. destruct (iswhite r) eqn:E; auto. apply white_not_wordc in E. congruence. }
    exists []. split; [|constructor]. cbn [heredoc_words]. rewrite Hc1. unfold read_word. rewrite (read_while_exact iswordc (r :: mk) c1 k); auto. rewrite Hl. reflexivity.
  - destruct m as [|m]; [lia|]. apply spells_split in Sp. destruct Sp as [c1 [S1 Sp]]. apply spells_split in Sp. destruct Sp as [c2 [S2 Sp]].
    assert (Hlt : (clen c2 < clen c1)%nat) by (eapply spells_lt; eauto). pose proof (spells_le _ _ _ S1).
    destruct y as [|r y]; [congruence|]. cbn [hd] in Hl.
    assert (Hc1 : skip_white c = c1).
    { apply (skip_gap w); auto. pose proof S2 as S3. apply spells_head in S3. destruct S3 as [? [? [-> _]]]. cbn in *.
      apply andb_true_iff in Ha. destruct Ha as [Ha _]. destruct (iswhite r) eqn:E; auto. apply white_not_wordc in E. congruence. }
    destruct Hw' as [Hw2 Hw1].
    destruct (IH w' c2 k m) as [vs [E Sh]]; auto; [lia|].
    assert (Hc2 : ch_in iswordc (peek c2) = false).
    { destruct w' as [|r' w']; [congruence|]. apply spells_head in Sp. destruct Sp as [? [? [-> _]]]. cbn. apply white_not_wordc. cbn in Hw2. apply andb_true_iff in Hw2. tauto. }
    exists (VLit LString (getpos c1) (r :: y) :: vs). split; [|constructor; auto; do 3 eexists; split; reflexivity].
    cbn [heredoc_words]. rewrite Hc1. unfold read_word. rewrite (read_while_exact iswordc (r :: y) c1 c2); auto. rewrite Hl. cbn [negb]. rewrite E. reflexivity.
Qed.

(** * Layout: characters and line ends *)

Fixpoint lay (l : list cell) (c k : cursor) : Prop :=
  match l with
  | [] => c = k
  | x :: l' => match c with Cons y _ t => x = y /\ lay l' t k | Eof _ => False end
  end.
Lemma lay_chars s c k : lay (chars s) c k <-> spells s c k.
Proof.
  revert c; induction s as [|r s IH]; intros c; cbn [chars map lay spells]; [tauto|]. destruct c as [|[|r'] p t]; try tauto.
  - split; [intros [H _]; discriminate|tauto].
  - specialize (IH t). unfold chars in IH. rewrite IH. split; intros [H1 H2]; split; auto; congruence.
Qed.
Lemma lay_app a b c k : lay (a ++ b) c k <-> exists m, lay a c m /\ lay b m k.
Proof.
  revert c; induction a as [|x a IH]; intros c; cbn [app lay].
  - split; [eauto|]. intros [m [-> H]]. auto.
  - destruct c as [|y p t].
    + split; [tauto|]. intros [m [[] _]].
    + rewrite IH. split; [intros [H [m [H1 H2]]]; eauto|intros [m [[H H1] H2]]; eauto].
Qed.
Lemma lay_sfx l c k : lay l c k -> sfx k c.
Proof.
  revert c; induction l as [|x l IH]; intros c; cbn [lay]; [intros ->; constructor|]. destruct c as [|y p t]; [tauto|]. intros [_ H]. constructor. auto.
Qed.
Lemma lay_wf l c k : lay l c k -> wf c -> wf k.
Proof. intros H. apply wf_sfx. eapply lay_sfx; eauto. Qed.
Lemma lay_clen l c k : lay l c k -> clen c = (length l + clen k)%nat.
Proof.
  revert c; induction l as [|x l IH]; intros c; cbn [lay length]; [intros ->; auto|]. destruct c as [|y p t]; [tauto|]. intros [_ H]. cbn [clen]. rewrite (IH _ H). lia.
Qed.
Lemma lay_cons x l c k : lay (x :: l) c k -> exists p t, c = Cons x p t /\ lay l t k.
Proof. cbn [lay]. destruct c as [|y p t]; [tauto|]. intros [-> H]. eauto. Qed.

Lemma getn_all_exact s c p t : spells s c (Cons EOL p t) -> getn_all c = (s, Cons EOL p t).
Proof.
  revert c; induction s as [|r s IH]; intros c; cbn [spells]; [intros ->; reflexivity|]. destruct c as [|[|r'] q c]; try contradiction. intros [-> H].
  cbn [getn_all]. rewrite (IH _ H). reflexivity.
Qed.
Lemma spells_line_eof s c p t : spells s c (Cons EOL p t) -> is_eof c = false.
Proof. destruct c; auto. destruct s; cbn [spells]; [discriminate|tauto]. Qed.

Lemma read_doc mk ds s : written_doc mk ds s -> forall c p t m, lay s c (Cons EOL p t) -> (clen c < m)%nat ->
  exists vs, heredoc_lines m mk c = Ok (vs, Cons EOL p t) /\ Forall2 lit_line vs ds.
Proof.
  induction 1 as [|q l ls s Hl Hls IH]; intros c p t m Sp Hm; (destruct m as [|m]; [lia|]).
  - apply lay_chars in Sp. exists []. split; [|constructor]. cbn [heredoc_lines]. rewrite (spells_line_eof _ _ _ _ Sp), (getn_all_exact _ _ _ _ Sp).
    rewrite text_eqb_rfl. reflexivity.
  - apply lay_app in Sp. destruct Sp as [c1 [S1 Sp]]. apply lay_cons in Sp. destruct Sp as [p1 [t1 [-> Sp]]]. apply lay_chars in S1.
    destruct (IH t1 p t m Sp) as [vs [E Sh]]; [pose proof (spells_le _ _ _ S1) as X; cbn [clen] in X; lia|].
    exists (VLit LString (getpos c) l :: vs). split; [|constructor; auto; do 3 eexists; split; reflexivity].
    cbn [heredoc_lines]. rewrite (spells_line_eof _ _ _ _ S1), (getn_all_exact _ _ _ _ S1).
    destruct (text_eqb l mk) eqn:Em; [apply text_eqb_eq in Em; congruence|]. cbn [get snd]. rewrite E. reflexivity.
Qed.

(** * The depth of :lockvar *)

Lemma read_depth z d w s c k : depth_text z d -> gap w -> (exists r y, s = r :: y /\ head_ok r = true /\ r <> C """" /\ r <> C "[" /\ isdigit r = false) -> spells (d ++ w ++ s) c k ->
  exists c1 w', (if o_in isdigit (peek1 (skip_white c)) then let '(x, c') := read_digit (skip_white c) in let* z := str2nr x in Ok (z, c') else Ok (0%Z, skip_white c)) = Ok (z, c1)
    /\ gap w' /\ spells (w' ++ s) c1 k.
Proof.
  intros Hd Hw Hs Sp. assert (Hg : good_head s) by (apply head_good; auto). destruct Hd as [[-> ->]|[[Hn Ha] [Hm ->]]].
  - destruct (head_skip _ _ _ _ Hg Hw Sp) as [c1 [r [-> [_ [S2 [Hp [Hr _]]]]]]]. exists c1, []. split; [|split; [reflexivity|auto]].
    destruct Hs as [r' [y [-> [_ [_ [_ H]]]]]]. cbn [hd] in Hr. subst r'. destruct c1 as [|[|x] p t]; try discriminate. cbn in *. inversion Hp; subst x. rewrite H. reflexivity.
  - pose proof Sp as S0. apply spells_split in Sp. destruct Sp as [c1 [S1 Sp]]. exists c1, w. split; [|split; auto].
    destruct d as [|r d]; [congruence|]. cbn [forallb] in Ha. pose proof Ha as Ha'. apply andb_true_iff in Ha'. destruct Ha' as [Hr _].
    assert (Hc : skip_white c = c).
    { pose proof S1 as X. apply spells_head in X. destruct X as [p [t [-> _]]]. apply (skip_white_head _ r); auto. destruct (iswhite r) eqn:E; auto.
      unfold iswhite in E. apply orb_true_iff in E. destruct E as [E|E]; apply N.eqb_eq in E; subst; discriminate. }
    rewrite Hc. assert (Hpk : o_in isdigit (peek1 c) = true). { pose proof S1 as X. apply spells_head in X. destruct X as [p [t [-> _]]]. exact Hr. }
    rewrite Hpk. unfold read_digit. rewrite (read_while_exact isdigit (r :: d) c c1); auto.
    + unfold str2nr. rewrite digits_val_fold. fold (decimal (r :: d)). destruct (decimal (r :: d) <=? 2147483647) eqn:E; [reflexivity|lia].
    + destruct Hs as [r' [y [-> [_ [_ [_ H]]]]]]. eapply gap_class with (w := w) (s := r' :: y); eauto; [|discriminate].
      intros x Hx. unfold iswhite in Hx. apply orb_true_iff in Hx. destruct Hx as [Hx|Hx]; apply N.eqb_eq in Hx; subst; reflexivity.
Qed.
