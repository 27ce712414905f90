(** Written assignment targets are read by the parser of left-hand sides. *)
From Coq Require Import Lia ZifyBool ZifyNat ZifyN Wf_nat.
From Verif Require Import Base CharClass Reader Vnode Token Tokenizer ExprParser Cursor Grammar TokSafe Ast Export Join JoinProof Script Written WrittenProof Lookahead WrittenBrace PrintBack CmdTable CmdParser WrittenScript.

Lemma dict_loop_name e1 lit start : forall n empty c v k, dict_loop e1 n lit empty start c = Ok (inr v, k) -> parse_identifier e1 start = Ok (v, k).
Proof.
  induction n as [|n IH]; intros empty c v k H; [discriminate|]. cbn [dict_loop] in H.
  apply bind_ok in H. destruct H as [[key c1] [_ H]]. apply bind_ok in H. destruct H as [[t c2] [_ H]].
  destruct (tk t); try discriminate.
  - apply bind_ok in H. destruct H as [[val c3] [_ H]]. apply bind_ok in H. destruct H as [[t2 c4] [_ H]].
    destruct (tk t2); try discriminate.
    apply bind_ok in H. destruct H as [[t3 c5] [_ H]]. destruct (tok_eqb (tk t3) KCClose); [discriminate|].
    apply bind_ok in H. destruct H as [[r c6] [H1 H2]]. destruct r as [kvs|v']; [discriminate|]. injection H2 as <- <-. eapply IH; eauto.
  - destruct empty; [|discriminate]. cbn [negb] in H. apply bind_ok in H. destruct H as [[v' c3] [H1 H2]]. injection H2 as <- <-. exact H1.
Qed.

Definition lv_base (v : vnode) : bool :=
  match v with VIdent _ _ | VCurlyName _ _ | VLit LOption _ _ | VLit LEnv _ _ | VLit LReg _ _ => true | _ => false end.

Definition lv_first (k : tok) : bool :=
  match k with KCOpen | KOption | KIdent | KCmp OLt MNone | KEnv | KReg => true | _ => false end.

Lemma lv9_of_expr9 e1 c v k : parse_expr9 e1 c = Ok (v, k) -> lv_base v = true ->
  (forall t d, tget c = Ok (t, d) -> tk t <> KLitCOpen /\ forall m, tk t <> KCmp OIs m /\ tk t <> KCmp OIsNot m) ->
  parse_lv9 e1 c = Ok (v, k) /\ exists t d, tget c = Ok (t, d) /\ lv_first (tk t) = true.
Proof.
  intros H Hb Hc. unfold parse_expr9, parse_lv9 in *. apply bind_ok in H. destruct H as [[t c1] [Ht H]]. rewrite Ht.
  destruct (Hc _ _ Ht) as [Hc1 Hc2]. cbn [bind]. 
  assert (Hbr : forall u, parse_brace e1 false u c c1 = Ok (v, k) -> parse_identifier e1 c = Ok (v, k)).
  { intros u Hp. assert (Hd : parse_dict e1 false u c c1 = Ok (v, k) -> parse_identifier e1 c = Ok (v, k)).
    { unfold parse_dict. intros Hd. apply bind_ok in Hd. destruct Hd as [[t2 c2] [_ Hd]].
      destruct (tok_eqb (tk t2) KCClose); [injection Hd as <- <-; discriminate|].
      apply bind_ok in Hd. destruct Hd as [[r c3] [H1 H2]]. destruct r as [kvs|v']; [injection H2 as <- <-; discriminate|].
      injection H2 as <- <-. eapply dict_loop_name; eauto. }
    unfold parse_brace in Hp. apply bind_ok in Hp. destruct Hp as [[t2 c2] [_ Hp]]. apply bind_ok in Hp. destruct Hp as [b [_ Hp]].
    destruct b; auto. apply bind_ok in Hp. destruct Hp as [[[vs c3]|] [_ Hp]]; auto.
    apply bind_ok in Hp. destruct Hp as [[body c4] [_ Hp]]. apply bind_ok in Hp. destruct Hp as [[t3 c5] [_ Hp]].
    destruct (negb (tok_eqb (tk t3) KCClose)); [discriminate|]. injection Hp as <- <-. discriminate. }
  assert (Hl : forall u w, (let* '(vs, c2) := w in Ok (VList u vs, c2)) = Ok (v, k) -> False).
  { intros u w Hl. apply bind_ok in Hl. destruct Hl as [[vs c2] [_ Hl]]. injection Hl as <- <-. discriminate. }
  assert (Hx : lv_first (tk t) = true -> exists t0 d, Ok (t, c1) = Ok (t0, d) /\ lv_first (tk t0) = true) by eauto.
  destruct (tk t) eqn:E;
    try discriminate H; try (injection H as <- <-; discriminate Hb); try (split; [exact H|apply Hx; reflexivity]);
    try (apply bind_ok in H; destruct H as [[? ?] [_ H]]; injection H as <- <-; discriminate Hb); try congruence.
  all: try (split; [eapply Hbr; exact H|apply Hx; reflexivity]).
  - destruct o, m; try discriminate H; try (exfalso; destruct (Hc2 MNone); congruence); try (exfalso; destruct (Hc2 MCs); congruence).
    split; [exact H|apply Hx; reflexivity].
  - apply bind_ok in H. destruct H as [[v1 c2] [_ H]]. apply bind_ok in H. destruct H as [[t2 c3] [_ H]].
    destruct (negb (tok_eqb (tk t2) KPClose)); [discriminate H|injection H as <- <-; discriminate Hb].
  - unfold parse_list in H. apply bind_ok in H. destruct H as [[t2 c2] [_ H]]. destruct (tok_eqb (tk t2) KSqClose); [injection H as <- <-; discriminate Hb|].
    apply Hl in H. contradiction.
Qed.

(** * The base of a target *)

Definition base_node (n : node) : bool :=
  match n with
  | NIdent _ _ | NCurlyName _ _ | NBasicLit _ TOPTION _ | NBasicLit _ TENV _ | NBasicLit _ TREG _ => true
  | _ => false
  end.

Lemma shows_base v n : shows v n -> base_node n = true -> lv_base v = true.
Proof.
  intros [n' [E [_ P]]] Hn. assert (Hn' : base_node n' = true).
  { assert (K : forall m, base_node (unplaced m) = base_node m) by (intros []; reflexivity).
    rewrite <- K, P, K. exact Hn. }
  clear P Hn. destruct v; try reflexivity; cbn [new_ast] in E; try (unb E; injection E as <-; discriminate Hn').
  - destruct v2; try discriminate. unb E. injection E as <-. discriminate Hn'.
  - injection E as <-. destruct k; try discriminate Hn'; reflexivity.
  - destruct (ea_cmd ea); [|discriminate]. unb E. injection E as <-. discriminate Hn'.
Qed.

Lemma head_token c t d r x : tget c = Ok (t, d) -> wf c -> spelling (tk t) = Some (r :: x) -> peek (skip_white c) = CR r /\ spells (r :: x) (skip_white c) d.
Proof.
  intros Ht Hw Hk. pose proof (tget_esafe (D := fun _ _ => True) c c Hw (sfx_refl c)) as Hs. rewrite Ht in Hs. cbn in Hs.
  destruct Hs as [d' [Hb [_ Hs]]]. pose proof (blank_fun _ _ Hb) as Hd. subst d'.
  assert (Hl : spells (tv t) (skip_white c) d /\ lexeme (tk t) (tv t)).
  { destruct (tk t); try exact Hs; discriminate. }
  destruct Hl as [Sp Hl]. unfold lexeme in Hl. rewrite Hk in Hl. rewrite Hl in Sp. split; auto.
  apply spells_head in Sp. destruct Sp as [p [u [-> _]]]. reflexivity.
Qed.

Lemma base_head n s : written false 9 n s -> base_node n = true -> exists r w, s = r :: w /\ iswhite r = false /\ r <> C "#" /\
  (isnamec1 r = true -> forall x, isnamec x = true -> sticks n x = true).
Proof.
  intros Hw Hn. inversion Hw; subst; try discriminate; try lia; try (match goal with H : base_node _ = true |- _ => idtac end).
  - match goal with H : lit_text _ _ |- _ => rename H into Hl end.
    destruct k; try discriminate; cbn [lit_text] in Hl.
    + destruct Hl as [sc [w [_ [_ ->]]]]. do 2 eexists. split; [reflexivity|]. split; [reflexivity|]. split; [discriminate|]. intros; discriminate.
    + destruct Hl as [w [_ ->]]. do 2 eexists. split; [reflexivity|]. split; [reflexivity|]. split; [discriminate|]. intros; discriminate.
    + destruct Hl as [w [_ ->]]. do 2 eexists. split; [reflexivity|]. split; [reflexivity|]. split; [discriminate|]. intros; discriminate.
  - match goal with H : name_text _ |- _ => rename H into Hl end.
    assert (Hx : exists r w, s = r :: w /\ iswhite r = false /\ r <> C "#").
    { destruct Hl as [[r [w [-> [Hr _]]]]|Hl].
      - exists r, w. split; auto. split; [|intros ->; discriminate Hr].
        destruct (iswhite r) eqn:E; auto. unfold iswhite in E. apply orb_true_iff in E. destruct E as [E|E]; apply N.eqb_eq in E; subst; discriminate Hr.
      - apply sid_head in Hl. destruct Hl as [b [w [-> _]]]. do 2 eexists. split; [reflexivity|]. split; [reflexivity|discriminate]. }
    destruct Hx as [r [w [-> [H1 H2]]]]. exists r, w. do 3 (split; auto). intros _ x Hx. cbn [sticks]. rewrite Hx. reflexivity.
  - match goal with H : isnamec1 r = true |- _ => rename H into Hr end. do 2 eexists. split; [reflexivity|].
    split; [|split; [intros ->; discriminate Hr|intros _ x Hx; cbn [sticks]; rewrite Hx; reflexivity]].
    destruct (iswhite r) eqn:E; auto. unfold iswhite in E. apply orb_true_iff in E. destruct E as [E|E]; apply N.eqb_eq in E; subst; discriminate Hr.
  - match goal with H : is_sid _ |- _ => apply sid_head in H; destruct H as [b [w [-> _]]] end.
    do 2 eexists. split; [reflexivity|]. split; [reflexivity|]. split; [discriminate|]. intros; discriminate.
  - do 2 eexists. split; [reflexivity|]. split; [reflexivity|]. split; [discriminate|]. intros _ x Hx. cbn [sticks]. rewrite Hx. reflexivity.
Qed.

Lemma wordc_cases c t d : tget c = Ok (t, d) -> wf c -> (exists m, tk t = KCmp OIs m \/ tk t = KCmp OIsNot m) ->
  exists r p u e w, skip_white c = Cons (R r) p u /\ isnamec1 r = true /\ In w [T "is"; T "isnot"] /\ spells w (skip_white c) e /\ ch_in iswordc (peek e) = false.
Proof.
  intros Ht Hw Hk. destruct (ident_token c t d Ht Hw (or_intror Hk)) as [r [p [u [E [Hr Hw']]]]]. rewrite E in *.
  destruct (word_cases r p u Hw' Hr) as [tt [d1 [G [Hi|H]]]].
  - unfold tget in Ht. rewrite E in Ht. rewrite G in Ht. injection Ht as <- <-. exfalso.
    unfold get2_ident in Hi. destruct (read_name _) in Hi. injection Hi as <- _. destruct Hk as [m [Hk|Hk]]; discriminate Hk.
  - destruct H as [o [m [w [e [_ [Hu [_ [Sp [Hp _]]]]]]]]]. exists r, p, u, e, w. auto.
Qed.

(** Such a word at the front of [s] makes [s] an operator. *)
Lemma base_token n s f ws c k : written false 9 n s -> base_node n = true -> ~ operator_word s -> gap ws -> spells (ws ++ s) c k -> wf c ->
  (clen c <= f)%nat -> stop false n 9 k ->
  forall t d, tget c = Ok (t, d) -> tk t <> KLitCOpen /\ forall m, tk t <> KCmp OIs m /\ tk t <> KCmp OIsNot m.
Proof.
  intros Hn Hb Ho Hws Sp Wf Hf [_ [Hfit _]] t d Ht.
  apply spells_split in Sp. destruct Sp as [c1 [Sw Sn]].
  destruct (base_head n s Hn Hb) as [r [w [-> [Hr [Hh Hst]]]]]. pose proof Sn as Sn0. apply spells_head in Sn0. destruct Sn0 as [p [u [-> Su]]].
  assert (Hsk : skip_white c = Cons (R r) p u) by (apply (skip_gap ws); auto; cbn [peek ch_of_cell ch_in]; exact Hr).
  split.
  - intros E. destruct (head_token c t d (C "#") (T "{") Ht Wf) as [Hp _]; [rewrite E; reflexivity|]. rewrite Hsk in Hp. injection Hp as ->. congruence.
  - assert (K : ~ exists m, tk t = KCmp OIs m \/ tk t = KCmp OIsNot m).
    { intros Hk. destruct (wordc_cases c t d Ht Wf Hk) as [r' [p' [u' [e [x [E [Hr' [Hx [Sx Hp]]]]]]]]]. rewrite Hsk in *. injection E as <- <- <-.
      destruct (spells_two _ _ _ _ _ Sn Sx) as [[a' [Ea Sa]]|[b' [Eb Sb]]].
      - apply Ho. exists x, a'. split; auto. split; auto. destruct a' as [|y a']; [exact I|]. cbn [head_not].
        apply spells_head in Sa. destruct Sa as [? [? [-> _]]]. exact Hp.
      - destruct b' as [|y b'].
        + apply Ho. exists x, []. rewrite app_nil_r in Eb. split; auto. split; [symmetry; rewrite app_nil_r; auto|exact I].
        + apply spells_head in Sb. destruct Sb as [? [? [-> _]]]. cbn [peek ch_of_cell fits] in Hfit. rewrite Hst in Hfit; auto; [discriminate|].
          assert (Hy : In y x) by (rewrite Eb; apply in_or_app; right; left; reflexivity).
          cbn [In] in Hx. destruct Hx as [<-|[<-|[]]]; cbn [In] in Hy; repeat (destruct Hy as [<-|Hy]; [reflexivity|]); contradiction. }
    intros m. split; intros E; apply K; eauto.
Qed.

(** * Reading a target *)

Definition lreads (n : node) (s : text) : Prop := forall f ws c k,
  gap ws -> spells (ws ++ s) c k -> wf c -> (clen c <= f)%nat -> stop false n 9 k ->
  (exists v m, (clen k < m)%nat /\ parse_lv8 (parse_expr1 f) c = lv8_loop (parse_expr1 f) m v k /\ shows v n) /\
  exists t d, tget c = Ok (t, d) /\ lv_first (tk t) = true.

Lemma lreads_base n s : written false 9 n s -> base_node n = true -> ~ operator_word s -> lreads n s.
Proof.
  intros Hn Hb Ho f ws c k Hws Sp Wf Hf Hs. assert (Hr : rightmost n = n) by (destruct n; auto; discriminate).
  destruct (reads_all false 9 n s ltac:(lia) (proj1 written_reads _ _ _ _ Hn) f ws c k Hws Sp Wf Hf) as [v [E Sh]]; [rewrite Hr; exact Hs|].
  change (at_ f 9 c) with (parse_expr9 (parse_expr1 f) c) in E.
  destruct (lv9_of_expr9 _ _ _ _ E (shows_base _ _ Sh Hb)) as [E9 Ht].
  { eapply base_token; eauto. }
  split; [|exact Ht]. exists v, (S (clen k)). split; [lia|]. split; [|exact Sh]. unfold parse_lv8. rewrite E9. reflexivity.
Qed.

Lemma lreads_suffix a sa n rest :
  lreads a sa ->
  (forall f k1 k, spells rest k1 k -> wf k1 -> (clen k1 <= f)%nat -> stop false n 9 k ->
     stop false a 9 k1 /\ (clen k < clen k1)%nat /\
     forall v m, shows v a -> exists v', shows v' n /\ lv8_loop (parse_expr1 f) (S m) v k1 = lv8_loop (parse_expr1 f) m v' k) ->
  lreads n (sa ++ rest).
Proof.
  intros Ha Hrest f ws c k Hw Sp Wf Hf Hs. rewrite app_assoc in Sp. apply spells_split in Sp. destruct Sp as [k1 [Sa Sp]].
  pose proof (spells_wf _ _ _ Sa Wf) as Wf1. pose proof (spells_le _ _ _ Sa) as L1.
  destruct (Hrest f k1 k Sp Wf1 ltac:(lia) Hs) as [Hst [L2 Hstep]].
  destruct (Ha f ws c k1 Hw Sa Wf Hf Hst) as [[v [m [Hm [E Sh]]]] Ht]. split; [|exact Ht]. destruct m as [|m]; [lia|].
  destruct (Hstep v m Sh) as [v' [Sh' E']]. exists v', m. split; [lia|]. split; auto.
  rewrite E. exact E'.
Qed.

Lemma rightmost_target a : is_target a = true -> rightmost a = a.
Proof. destruct a; auto; discriminate. Qed.

Lemma lreads_subscript p a b sa sb w1 w2 : lreads a sa -> is_target a = true -> reads false 1 b sb -> gap w1 -> gap w2 ->
  lreads (NSubscript p (Some a) (Some b)) (sa ++ T "[" ++ w1 ++ sb ++ w2 ++ T "]").
Proof.
  intros Ha Hta Hb Hw1 Hw2. apply lreads_suffix with (a := a); [auto|]. intros f k1 k Sp Wf Hf Hs.
  apply spells_split in Sp. destruct Sp as [c1 [S1 Sp]]. rewrite app_assoc in Sp. apply spells_split in Sp. destruct Sp as [c2 [Sb Sp]].
  destruct (sq_open _ _ S1) as [[q Ht] [Hwh Hst]]. pose proof (spells_wf _ _ _ S1 Wf) as Wf1.
  pose proof (spells_le _ _ _ Sb). pose proof (spells_le _ _ _ Sp).
  assert (L1 : (clen c1 < clen k1)%nat) by (eapply spells_lt; eauto; discriminate).
  split; [rewrite <- (rightmost_target a Hta); auto|]. split; [lia|]. intros v m Sh.
  destruct (punct_get (C "]") KSqClose w2 c2 k eq_refl Hw2 Sp) as [q2 Ht2].
  destruct (reads1 false b sb Hb f w1 c1 c2 Hw1 Sb Wf1 ltac:(lia)) as [v2 [E Sh2]].
  { apply (stop_punct _ (C "]") KSqClose w2 c2 k); [reflexivity|auto|auto|apply follows_any; cbn; auto 12|intros; cbn; lia]. }
  exists (VSubscript q v v2). split; [apply shows_subscript; auto|]. cbn [lv8_loop]. rewrite Hwh, Ht. cbn [bind tk tp].
  unfold parse_subscript. destruct (first1 _ _ _ E) as [t1 [d1 [Ht1 Ho]]]. rewrite Ht1. cbn [bind].
  rewrite (opens_c _ Ho).
  rewrite E. cbn [bind]. rewrite Ht2. reflexivity.
Qed.

Lemma lreads_slice p a x y sa sx sy : lreads a sa -> is_target a = true -> reads_bound true x sx -> reads_bound false y sy ->
  lreads (NSlice (Some a) p x y) (sa ++ T "[" ++ sx ++ T ":" ++ sy ++ T "]").
Proof.
  intros Ha Hta Hx Hy. apply lreads_suffix with (a := a); [auto|]. intros f k1 k Sp Wf Hf Hs.
  apply spells_split in Sp. destruct Sp as [c1 [S1 Sp]]. rewrite app_assoc in Sp. apply spells_split in Sp. destruct Sp as [c2 [Sx Sp]].
  destruct (sq_open _ _ S1) as [[q Ht] [Hwh Hst]]. pose proof (spells_wf _ _ _ S1 Wf) as Wf1. pose proof (spells_wf _ _ _ Sx Wf1) as Wf2.
  pose proof (spells_le _ _ _ Sx). pose proof (spells_le _ _ _ Sp).
  assert (L1 : (clen c1 < clen k1)%nat) by (eapply spells_lt; eauto; discriminate).
  split; [rewrite <- (rightmost_target a Hta); auto|]. split; [lia|]. intros v m Sh.
  specialize (Hx f c1 c2 Sx Wf1 ltac:(lia)). cbn zeta in Hx. destruct x as [n|].
  - destruct Hx as [v2 [k2 [q2 [Sh2 [E Ht2]]]]].
    destruct (bound_tail f y sy q v (Some v2) (Some n) c2 k Hy Sp Wf2 ltac:(lia) Sh2) as [y' [Shy Ey]].
    exists (VSlice q v (Some v2) y'). split; [apply shows_slice; auto|]. cbn [lv8_loop]. rewrite Hwh, Ht. cbn [bind tk tp].
    unfold parse_subscript. destruct (first1 _ _ _ E) as [t1 [d1 [Ht1 Ho]]]. rewrite Ht1. cbn [bind].
    rewrite (opens_c _ Ho).
    rewrite E. cbn [bind]. rewrite Ht2. cbn [bind tk]. change (tok_eqb KColon KColon) with true. cbv iota. rewrite Ey. reflexivity.
  - destruct Hx as [q2 Ht2].
    destruct (bound_tail f y sy q v None None c2 k Hy Sp Wf2 ltac:(lia) I) as [y' [Shy Ey]].
    exists (VSlice q v None y'). split; [apply shows_slice; cbn; auto|]. cbn [lv8_loop]. rewrite Hwh, Ht. cbn [bind tk tp].
    unfold parse_subscript. rewrite Ht2. cbn [bind tk]. change (tok_eqb KColon KColon) with true. cbv iota. rewrite Ey. reflexivity.
Qed.

Lemma lreads_dot p q a sa s : lreads a sa -> is_target a = true -> has_members a = true -> some_of iswordc s ->
  lreads (NDot (Some a) p (Some (NIdent q s))) (sa ++ T "." ++ s).
Proof.
  intros Ha Hta Hm [Hs0 Hsw]. apply lreads_suffix with (a := a); [auto|]. intros f k1 k Sp Wf Hf Hs.
  apply spells_head in Sp. destruct Sp as [p0 [t [-> Sp]]]. change ([] ++ s) with s in Sp.
  destruct Hs as [G1 [G2 G3]].
  assert (Hnc : ch_in isnamec (peek k) = false) by exact (fits_in (NDot (Some a) p (Some (NIdent q s))) isnamec _ (fun r H => H) G2).
  assert (Hwc : ch_in iswordc (peek k) = false) by (eapply cls_in; [|exact Hnc]; unfold isnamec; intros r ->; reflexivity).
  assert (Hw : ch_in iswordc (peek t) = true /\ ch_is (peek t) (C ".") = false).
  { destruct s as [|r s]; [congruence|]. apply spells_head in Sp. destruct Sp as [p1 [t1 [-> _]]]. cbn [forallb] in Hsw.
    apply andb_true_iff in Hsw. destruct Hsw as [Hr _]. cbn [peek ch_of_cell ch_in ch_is]. split; auto.
    destruct (r =? C ".") eqn:E; auto. apply N.eqb_eq in E. subst. discriminate. }
  destruct Hw as [Hw1 Hw2].
  assert (Ht : tget (Cons (R (C ".")) p0 t) = Ok (mkTok KDot (T ".") p0, t)).
  { change (tget (Cons (R (C ".")) p0 t)) with (let* x := p_ 1 (Cons (R (C ".")) p0 t) in
      if ch_is x (C ".") then let* y := p_ 2 (Cons (R (C ".")) p0 t) in
        if ch_is y (C ".") then tok_fix KDotDotDot (T "...") (Cons (R (C ".")) p0 t) else tok_fix KDotDot (T "..") (Cons (R (C ".")) p0 t)
      else tok_fix KDot (T ".") (Cons (R (C ".")) p0 t)).
    rewrite p_S, p_0 by auto. cbn [bind]. rewrite Hw2. reflexivity. }
  split; [|split].
  - split; [discriminate|]. split; [cbn [peek ch_of_cell fits]; destruct a; try discriminate Hm; try reflexivity; cbn; rewrite andb_false_r; reflexivity|]. do 2 eexists. split; [exact Ht|]. cbn [tk lev]. destruct dot_op; lia.
  - apply spells_le in Sp. cbn [clen]. lia.
  - intros v m Sh. exists (VDot p0 v (VIdent (getpos t) s)). split; [apply shows_dot; auto|].
    cbn [lv8_loop]. rewrite Ht. cbn [bind tk tp peek ch_of_cell ch_in]. change (iswhite (C ".")) with false. cbv iota.
    unfold parse_dot. rewrite (shows_members _ _ Sh), Hm. cbn [negb]. rewrite p_0. cbn [bind]. rewrite Hw1. cbn [negb].
    unfold read_word. rewrite (read_while_exact iswordc s t k) by auto. rewrite p_0. cbn [bind].
    rewrite Hnc. reflexivity.
Qed.


Lemma written_lreads : forall s n, written false 8 n s -> is_target n = true -> ~ operator_word s -> lreads n s.
Proof.
  induction s as [s IH] using (induction_ltof1 _ (@length N)). unfold ltof in IH. intros n Hw Hn Ho.
  assert (Happ : forall sa rest, s = sa ++ rest -> head_not iswordc rest -> ~ operator_word sa).
  { intros sa rest -> Hh [u [s' [Hu [-> Hs']]]]. apply Ho. exists u, (s' ++ rest). split; auto. split; [rewrite app_assoc; auto|].
    destruct s'; auto. }
  assert (Hlen : forall sa x rest, s = sa ++ x :: rest -> (length sa < length s)%nat) by (intros ? ? ? ->; rewrite app_length; cbn [length]; lia).
  inversion Hw; subst.
  - match goal with H : written false 9 n s |- _ => rename H into H9 end.
    apply lreads_base; auto. inversion H9; subst; try lia; try discriminate; auto.
  - discriminate.
  - cbn [is_target] in Hn. apply lreads_subscript; auto; [|apply written_reads; auto].
    apply IH; auto; [eapply Hlen; reflexivity|]. eapply Happ; [reflexivity|reflexivity].
  - cbn [is_target] in Hn. apply lreads_slice; auto; try (apply written_reads; auto).
    apply IH; auto; [eapply Hlen; reflexivity|]. eapply Happ; [reflexivity|reflexivity].
  - discriminate.
  - discriminate.
  - cbn [is_target] in Hn. apply lreads_dot; auto.
    apply IH; auto; [eapply Hlen; reflexivity|]. eapply Happ; [reflexivity|reflexivity].
Qed.

(** * The end of a target *)

Definition lv_end (white op : bool) (k : tok) : bool := match k with KSqOpen => white | KDot => op | _ => true end.
Definition lstop (n : node) (k : cursor) : Prop :=
  fits n (peek k) = true /\
  exists t d, tget k = Ok (t, d) /\ lv_end (ch_in iswhite (peek k)) (dot_op n k d) (tk t) = true.

Lemma lstop_stop n k : lstop n k -> stop false n 9 k.
Proof.
  intros [Hf [t [d [Ht _]]]]. split; [discriminate|]. split; auto. exists t, d. split; auto.
  destruct (tk t), (dot_op n k d), (ch_in iswhite (peek k)); cbn [lev]; lia.
Qed.
Lemma stop_lstop e n k : stop e n 1 k -> lstop n k.
Proof.
  intros [_ [Hf [t [d [Ht Hl]]]]]. split; auto. exists t, d. split; auto.
  destruct (tk t), (dot_op n k d), (ch_in iswhite (peek k)); cbn [lev lv_end] in *; auto; lia.
Qed.

Lemma lv8_ends e1 n m v k : lstop n k -> (0 < m)%nat -> dot_left_ok v = has_members n -> lv8_loop e1 m v k = Ok (v, k).
Proof.
  intros [_ [t [d [Ht Hv]]]] Hm Hd. destruct m as [|m]; [lia|]. cbn [lv8_loop].
  unfold dot_op in Hv. set (w := ch_in iswhite (peek k)) in *. clearbody w. rewrite Ht. cbn [bind].
  destruct (tk t); try reflexivity; cbn [lv_end] in Hv; destruct w; try reflexivity; try discriminate.
  unfold parse_dot. rewrite Hd. destruct (has_members n); [|reflexivity]. cbn [negb orb] in *.
  rewrite p_0. cbn [bind]. destruct (ch_in iswordc (peek d)); [discriminate|reflexivity].
Qed.

Lemma read_target n s ws c k : written_target n s -> gap ws -> spells (ws ++ s) c k -> wf c -> lstop n k ->
  (exists v, parse_lvalue_ c = Ok (v, k) /\ shows v n) /\ exists t d, tget c = Ok (t, d) /\ lv_first (tk t) = true.
Proof.
  intros [Hw [Hn Ho]] Hws Sp Wf Hs. unfold parse_lvalue_.
  destruct (written_lreads s n Hw Hn Ho (S (clen c)) ws c k Hws Sp Wf ltac:(lia) (lstop_stop _ _ Hs)) as [[v [m [Hm [E Sh]]]] Ht].
  split; [|exact Ht]. exists v. split; auto. rewrite E. eapply lv8_ends; eauto; [lia|]. apply shows_members. auto.
Qed.

(** The parsed target has the shape of the written one. *)
Definition vtarget (v : vnode) (n : node) : bool :=
  match v, n with
  | VIdent _ s, NIdent _ s' => text_eqb s s'
  | VCurlyName _ _, NCurlyName _ _ | VSubscript _ _ _, NSubscript _ _ _ | VSlice _ _ _ _, NSlice _ _ _ _
  | VDot _ _ _, NDot _ _ _ | VLit LOption _ _, NBasicLit _ TOPTION _ | VLit LEnv _ _, NBasicLit _ TENV _
  | VLit LReg _ _, NBasicLit _ TREG _ => true
  | _, _ => false
  end.

Lemma text_eqb_rfl s : text_eqb s s = true.
Proof. apply text_eqb_eq. reflexivity. Qed.

Lemma shows_target v n : shows v n -> is_target n = true -> vtarget v n = true.
Proof.
  intros [n' [E [_ P]]] Hn. assert (Hn' : vtarget v n = vtarget v n').
  { assert (K : forall m, vtarget v (unplaced m) = vtarget v m) by (intros []; reflexivity). rewrite <- (K n), <- P. auto. }
  assert (Ht : match n' with NIdent _ _ | NCurlyName _ _ | NBasicLit _ TOPTION _ | NBasicLit _ TENV _ | NBasicLit _ TREG _
    | NSubscript _ _ _ | NSlice _ _ _ _ | NDot _ _ _ => true | _ => false end = true).
  { unfold unplaced in P. destruct n; try discriminate; destruct n'; try discriminate; auto. cbn [map_node] in P. injection P as -> _. exact Hn. }
  rewrite Hn'. clear Hn' P Hn. destruct v; cbn [new_ast] in E; try (unb E; injection E as <-; try reflexivity; discriminate Ht).
  - destruct v2; try discriminate. unb E. injection E as <-. discriminate Ht.
  - injection E as <-. destruct k; try discriminate Ht; reflexivity.
  - injection E as <-. cbn [vtarget]. apply text_eqb_rfl.
  - destruct (ea_cmd ea); [|discriminate]. unb E. injection E as <-. discriminate Ht.
Qed.

Lemma read_lvalue n s ws c k : written_target n s -> variable n -> gap ws -> spells (ws ++ s) c k -> wf c -> lstop n k ->
  exists v, parse_lvalue c = Ok (v, k) /\ shows v n.
Proof.
  intros Ht Hv Hws Sp Wf Hs. destruct (read_target n s ws c k Ht Hws Sp Wf Hs) as [[v [E Sh]] _]. exists v. split; auto.
  unfold parse_lvalue. rewrite E. cbn [bind]. pose proof (shows_target _ _ Sh (proj1 (proj2 Ht))) as Hx.
  destruct v; try discriminate Hx; auto.
  - destruct k0; try discriminate Hx; reflexivity.
  - destruct n; try discriminate Hx. cbn [vtarget] in Hx. apply text_eqb_eq in Hx. subst. cbn [variable] in Hv. rewrite Hv. reflexivity.
Qed.

Lemma read_constlvalue n s ws c k : written_target n s -> const_variable n -> gap ws -> spells (ws ++ s) c k -> wf c -> lstop n k ->
  exists v, parse_constlvalue c = Ok (v, k) /\ shows v n.
Proof.
  intros Ht Hv Hws Sp Wf Hs. destruct (read_target n s ws c k Ht Hws Sp Wf Hs) as [[v [E Sh]] _]. exists v. split; auto.
  unfold parse_constlvalue. rewrite E. cbn [bind]. pose proof (shows_target _ _ Sh (proj1 (proj2 Ht))) as Hx.
  destruct v; try discriminate Hx; auto; destruct n; try discriminate Hx; try contradiction; try (destruct k0; discriminate Hx).
  - cbn [vtarget] in Hx. apply text_eqb_eq in Hx. subst. cbn [const_variable] in Hv. rewrite Hv. reflexivity.
Qed.

Lemma read_lvalue_func n s ws c k : written_target n s -> (forall x y u v, n <> NSlice x y u v) -> gap ws -> spells (ws ++ s) c k -> wf c -> lstop n k ->
  exists v, parse_lvalue_func c = Ok (v, k) /\ shows v n.
Proof.
  intros Ht Hv Hws Sp Wf Hs. destruct (read_target n s ws c k Ht Hws Sp Wf Hs) as [[v [E Sh]] _]. exists v. split; auto.
  unfold parse_lvalue_func. rewrite E. cbn [bind]. pose proof (shows_target _ _ Sh (proj1 (proj2 Ht))) as Hx.
  destruct v; try discriminate Hx; auto; destruct n; try discriminate Hx; try (exfalso; eapply Hv; reflexivity); destruct k0; try discriminate Hx; reflexivity.
Qed.
