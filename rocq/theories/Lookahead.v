(** What the parser sees when it looks ahead by two tokens after an opening brace. *)
From Coq Require Import Lia ZifyBool ZifyNat ZifyN.
From Verif Require Import Base CharClass Reader Vnode Tokenizer ExprParser Token Ast Export
  Cursor Grammar TokSafe Join Written WrittenProof.

(** * Tokens that are never rejected *)

Definition noerr {A} (o : outcome A) : Prop := match o with PErr _ => False | _ => True end.

Lemma noerr_bind {A B} (m : outcome A) (k : A -> outcome B) : noerr m -> (forall a, m = Ok a -> noerr (k a)) -> noerr (bind m k).
Proof. destruct m; cbn; auto. Qed.
Lemma noerr_buf k : forall c, noerr (buf_at k c).
Proof. induction k; intros [|x p t]; cbn; auto. Qed.
Lemma noerr_p k c : noerr (p_ k c).
Proof. destruct c; [exact I|]. apply noerr_buf. Qed.
Lemma noerr_seek k : forall c, noerr (seek_cur k c).
Proof. induction k; intros [|x p t]; cbn; auto. Qed.

Ltac ne := repeat match goal with
  | |- noerr (bind _ _) => apply noerr_bind; [|intros ? ?]
  | |- noerr (p_ _ _) => apply noerr_p
  | |- noerr (seek_cur _ _) => apply noerr_seek
  | |- noerr (Ok _) => exact I
  | |- noerr (if ?b then _ else _) => destruct b
  | |- noerr (let '(_, _) := ?x in _) => destruct x
  end.

Lemma noerr_number c : noerr (get2_number c).
Proof. unfold get2_number. ne. Qed.
Lemma noerr_fix k s c : noerr (tok_fix k s c).
Proof. unfold tok_fix. ne. Qed.

Lemma tget_ok c : wf c -> noerr (get2 (skip_white c)) -> exists t d, tget c = Ok (t, d) /\ token_at c t d.
Proof.
  intros Hw Hn. pose proof (tget_esafe (D := fun _ _ => True) c c Hw (sfx_refl c)) as Hs. unfold tget in *.
  destruct (get2 (skip_white c)) as [[t d]| | |]; try contradiction. eauto.
Qed.

(** Words. *)
Lemma word_cases r p t : wf (Cons (R r) p t) -> isnamec1 r = true ->
  exists tt d1, get2 (Cons (R r) p t) = Ok (tt, d1) /\
    (get2_ident (Cons (R r) p t) = Ok (tt, d1) \/
     exists o m u e, tk tt = KCmp o m /\ In u [T "is"; T "isnot"] /\ (o = OIs /\ u = T "is" \/ o = OIsNot /\ u = T "isnot") /\
       spells u (Cons (R r) p t) e /\ ch_in iswordc (peek e) = false /\
       (m = MNone -> d1 = e /\ ch_is (peek e) (C "#") = false) /\
       (m <> MNone -> exists x, In x (T "?#") /\ spells (u ++ [x]) (Cons (R r) p t) d1)).
Proof.
  intros Hw Hr. rewrite get2_named by auto.
  assert (Hid : exists tt d1, get2_ident (Cons (R r) p t) = Ok (tt, d1)) by (unfold get2_ident; destruct (read_name _); eauto).
  destruct Hid as [ti [di Hid]].
  assert (Hc : forall o u e, In u [T "is"; T "isnot"] -> (o = OIs /\ u = T "is" \/ o = OIsNot /\ u = T "isnot") ->
    spells u (Cons (R r) p t) e -> ch_in iswordc (peek e) = false ->
    exists tt d1, tok_cmp o (length u) u (Cons (R r) p t) = Ok (tt, d1) /\
     exists o m u e, tk tt = KCmp o m /\ In u [T "is"; T "isnot"] /\ (o = OIs /\ u = T "is" \/ o = OIsNot /\ u = T "isnot") /\
       spells u (Cons (R r) p t) e /\ ch_in iswordc (peek e) = false /\
       (m = MNone -> d1 = e /\ ch_is (peek e) (C "#") = false) /\
       (m <> MNone -> exists x, In x (T "?#") /\ spells (u ++ [x]) (Cons (R r) p t) d1)).
  { intros o u e Hu Ho Sp He. unfold tok_cmp. rewrite (p_spells (length u) u _ e) by auto. cbn [bind].
    destruct (ch_is (peek e) (C "?")) eqn:E1; [|destruct (ch_is (peek e) (C "#")) eqn:E2].
    - apply ch_is_peek in E1. destruct E1 as [p1 [t1 E1]].
      assert (Hs2 : spells (u ++ T "?") (Cons (R r) p t) t1) by (eapply spells_app; [exact Sp|]; rewrite E1; cbn; auto).
      rewrite (seek_spells (S (length u)) (u ++ T "?") _ t1) by (auto; rewrite app_length; cbn; lia). cbn [bind].
      do 2 eexists. split; [reflexivity|]. exists o, MCi, u, e. repeat split; auto; try discriminate. intros _. exists (C "?"). split; auto. left; reflexivity.
    - apply ch_is_peek in E2. destruct E2 as [p1 [t1 E2]].
      assert (Hs2 : spells (u ++ T "#") (Cons (R r) p t) t1) by (eapply spells_app; [exact Sp|]; rewrite E2; cbn; auto).
      rewrite (seek_spells (S (length u)) (u ++ T "#") _ t1) by (auto; rewrite app_length; cbn; lia). cbn [bind].
      do 2 eexists. split; [reflexivity|]. exists o, MCs, u, e. repeat split; auto; try discriminate. intros _. exists (C "#"). split; auto. right; left; reflexivity.
    - rewrite (seek_spells (length u) u _ e) by auto. cbn [bind]. do 2 eexists. split; [reflexivity|].
      exists o, MNone, u, e. repeat split; auto; congruence. }
  unfold get2_word. destruct (r =? C "i") eqn:E0; [|rewrite Hid; eauto]. apply N.eqb_eq in E0. subst r.
  rewrite p_S, p_0 by auto. cbn [bind].
  destruct (ch_is (peek t) (C "s")) eqn:E1; [|rewrite Hid; eauto]. apply ch_is_peek in E1. destruct E1 as [p0 [t0 ->]].
  pose proof (wf_tail _ _ _ Hw) as Hw1. rewrite p_S, p_S, p_0 by auto. cbn [bind].
  destruct (ch_in iswordc (peek t0)) eqn:Ew; cbn [negb]; cycle 1.
  { destruct (Hc OIs (T "is") t0 ltac:(left; reflexivity) ltac:(left; auto) ltac:(cbn; auto) Ew) as [tt [d1 [E H]]]. exists tt, d1. split; [exact E|right; exact H]. }
  destruct (p_match_spells (T "not") 2 (Cons (R (C "i")) p (Cons (R (C "s")) p0 t0)) t0) as [[H1 [d' H2]]|H1].
  - eapply wf_tail; eauto.
  - intros j. rewrite Nat.add_comm, Nat.add_comm. cbn [Nat.add]. rewrite p_S, p_S; auto.
  - rewrite H1. cbn [bind].
    assert (S5 : spells (T "isnot") (Cons (R (C "i")) p (Cons (R (C "s")) p0 t0)) d') by (cbn [spells]; auto).
    rewrite (p_spells 5 (T "isnot") _ d') by auto. cbn [bind].
    destruct (ch_in iswordc (peek d')) eqn:Ew5; cbn [negb]; [rewrite Hid; eauto|].
    destruct (Hc OIsNot (T "isnot") d' ltac:(right; left; reflexivity) ltac:(right; auto) S5 Ew5) as [tt [d1 [E H]]]. exists tt, d1. split; [exact E|right; exact H].
  - rewrite H1. cbn [bind]. rewrite Hid. eauto.
Qed.

Lemma skip_here c r : peek c = CR r -> iswhite r = false -> skip_white c = c.
Proof. intros H Hr. destruct c as [|[|x] p t]; cbn [peek ch_of_cell] in H; try discriminate. injection H as ->. apply skip_gap with (w := []); [reflexivity|reflexivity|exact Hr]. Qed.

(** Numbers that are not blobs. *)
Lemma digit_cases r p t : wf (Cons (R r) p t) -> isdigit r = true -> (r = C "0" -> ch_is (peek t) (C "z") = false /\ ch_is (peek t) (C "Z") = false) ->
  exists tt d1, get2 (Cons (R r) p t) = Ok (tt, d1) /\ tk tt = KNumber /\ ch_is (peek d1) (C "0") = false.
Proof.
  intros Hw Hr Hz. rewrite get2_digits by auto.
  assert (Hn : noerr (get2_digit r (Cons (R r) p t)) /\ forall tt d1, get2_digit r (Cons (R r) p t) = Ok (tt, d1) -> tk tt = KNumber /\ ch_is (peek d1) (C "0") = false).
  { assert (Hd : forall f c, f (C "0") = true -> ch_is (peek (snd (read_while f c))) (C "0") = false).
    { intros f c Hf. destruct (read_while f c) as [s c'] eqn:E. apply read_while_spells in E. destruct E as [_ [_ E]]. cbn [snd].
      destruct c' as [|[|x] q t']; auto. cbn [peek ch_of_cell ch_is] in *. destruct (x =? C "0") eqn:Ex; auto. apply N.eqb_eq in Ex. subst.
      exfalso. rewrite (E _ eq_refl) in Hf. discriminate. }
    assert (Hnum : forall c tt d1, get2_number c = Ok (tt, d1) -> tk tt = KNumber /\ ch_is (peek d1) (C "0") = false).
    { intros c tt d1 E. unfold get2_number in E. pose proof (Hd isdigit) as Hd'. unfold read_digit in E.
      destruct (read_while isdigit c) as [s c1] eqn:R1. unb E. match type of E with (if ?b then _ else _) = _ => destruct b end.
      2: { injection E as <- <-. split; auto. specialize (Hd' c eq_refl). rewrite R1 in Hd'. exact Hd'. }
      destruct (getn 1 c1) as [s2 c2]. destruct (read_while isdigit c2) as [s3 c3] eqn:R3. unb E.
      match type of E with (if ?b then _ else _) = _ => destruct b end.
      2: { injection E as <- <-. split; auto. specialize (Hd' c2 eq_refl). rewrite R3 in Hd'. exact Hd'. }
      match type of E with (let '(_, _) := ?x in _) = _ => destruct x as [s4 c4] end. destruct (read_while isdigit c4) as [s5 c5] eqn:R5.
      injection E as <- <-. split; auto. specialize (Hd' c4 eq_refl). rewrite R5 in Hd'. exact Hd'. }
    unfold get2_digit. destruct (r =? C "0") eqn:E0; [|split; [apply noerr_number|apply Hnum]].
    apply N.eqb_eq in E0. destruct (Hz E0) as [Z1 Z2]. subst r. rewrite p_S, p_0 by auto. cbn [bind]. rewrite Z1, Z2. cbn [orb].
    destruct (ch_is (peek t) (C "X") || ch_is (peek t) (C "x")).
    { destruct (p_ 2 _) as [x2| | |] eqn:E2; try (split; [exact (eq_rect _ noerr (noerr_p 2 _) _ E2)|discriminate]). cbn [bind].
      destruct (ch_in isxdigit x2); [|split; [apply noerr_number|apply Hnum]]. destruct (getn 3 _) as [s c1]. unfold read_xdigit.
      destruct (read_while isxdigit c1) as [s2 c2] eqn:R2. split; [exact I|]. intros tt d1 E. injection E as <- <-. split; auto.
      specialize (Hd isxdigit c1 eq_refl). rewrite R2 in Hd. exact Hd. }
    destruct (ch_is (peek t) (C "B") || ch_is (peek t) (C "b")).
    { destruct (p_ 2 _) as [x2| | |] eqn:E2; try (split; [exact (eq_rect _ noerr (noerr_p 2 _) _ E2)|discriminate]). cbn [bind].
      destruct (ch_is x2 (C "0") || ch_is x2 (C "1")); [|split; [apply noerr_number|apply Hnum]]. destruct (getn 3 _) as [s c1]. unfold read_bdigit.
      match goal with |- context [read_while ?f c1] => destruct (read_while f c1) as [s2 c2] eqn:R2; specialize (Hd f c1 eq_refl); rewrite R2 in Hd end.
      split; [exact I|]. intros tt d1 E. injection E as <- <-. split; auto. }
    split; [apply noerr_number|apply Hnum]. }
  destruct Hn as [Hn Hk]. rewrite <- get2_digits in * by auto.
  assert (Hsk : skip_white (Cons (R r) p t) = Cons (R r) p t) by (eapply skip_here; [reflexivity|apply digit_not_white; auto]).
  destruct (tget_ok (Cons (R r) p t) Hw) as [tt [d1 [Ht _]]]; [rewrite Hsk; exact Hn|].
  unfold tget in Ht. rewrite Hsk in Ht. exists tt, d1. split; auto.
Qed.

(** * The start of an expression *)

(** Whether a tree starts with a name and a method call on it. *)
Fixpoint mon (v : vnode) : bool :=
  match v with
  | VMethod _ (VIdent _ _) _ => true
  | VMethod _ a _ | VTernary _ a _ _ | VBin _ _ a _ | VSubscript _ a _ | VSlice _ a _ _ | VCall _ a _ | VDot _ a _ => mon a
  | _ => false
  end.

Lemma expr_of v x : (let* y := new_ast [] v in Ok (to_expr y)) = Ok x -> exists y, new_ast [] v = Ok y /\ x = to_expr y.
Proof. intros H. apply bind_ok in H. destruct H as [y [H E]]. injection E as <-. eauto. Qed.

Ltac lm := match goal with
  | IH : mon ?v = true -> _, Hm : mon ?v = true, E : bind _ _ = Ok _ |- _ =>
    apply bind_ok in E; destruct E as [? [E1 E]]; unb E; injection E as <-; apply expr_of in E1; destruct E1 as [? [E1 ->]];
    destruct (IH Hm _ E1) as [X M]; split; [reflexivity|]; unfold to_expr; rewrite X; exact M
  end.

Lemma mon_node v : mon v = true -> forall n, new_ast [] v = Ok n -> is_expr n = true /\ method_on_name n = true.
Proof.
  induction v; cbn [mon]; intros Hm n E; try discriminate; cbn [new_ast] in E.
  1-4: lm.
  - destruct v2; try discriminate. unb E. injection E as <-.
    apply expr_of in H. destruct H as [y [H ->]].
    assert (K : (exists p s, v1 = VIdent p s) \/ mon v1 = true) by (destruct v1; auto; left; eauto).
    destruct K as [[q [s ->]]|K].
    + cbn [new_ast] in H. injection H as <-. split; reflexivity.
    + destruct (IHv1 K _ H) as [X M]. split; auto. unfold to_expr. rewrite X. cbn [method_on_name]. destruct y; auto.
  - lm.
  - lm.
Qed.

Lemma method_unplaced : forall n, method_on_name (unplaced n) = method_on_name n.
Proof.
  fix IH 1. intros n. destruct n; try reflexivity; cbn [unplaced map_node method_on_name option_map];
    try (match goal with |- match option_map _ ?o with _ => _ end = _ => destruct o as [a|]; [exact (IH a)|reflexivity] end).
  - destruct left as [a|]; [|reflexivity]. cbn [option_map]. pose proof (IH a) as Ha. unfold unplaced in Ha. destruct a; try exact Ha; reflexivity.
Qed.

Lemma mon_shows v n : shows v n -> mon v = true -> method_on_name n = true.
Proof.
  intros [n' [E [X P]]] Hm. destruct (mon_node _ Hm _ E) as [_ M]. rewrite <- method_unplaced, <- P, method_unplaced. exact M.
Qed.

Lemma bin_loop_mon sub ops n : forall v c r, mon v = true -> bin_loop sub ops n v c = Ok r -> mon (fst r) = true.
Proof.
  induction n as [|n IH]; intros v c r Hm E; cbn [bin_loop] in E; [discriminate|].
  apply bind_ok in E. destruct E as [[t c1] [_ E]]. destruct (ops (tk t)).
  - apply bind_ok in E. destruct E as [[rgt c2] [_ E]]. eapply IH; [|exact E]. exact Hm.
  - injection E as <-. exact Hm.
Qed.

Lemma subscript_mon e1 p v c r : mon v = true -> parse_subscript e1 p v c = Ok r -> mon (fst r) = true.
Proof.
  intros Hm E. unfold parse_subscript in E. apply bind_ok in E. destruct E as [[t c1] [_ E]].
  assert (Hs : forall r0 c0, slice_tail e1 p v r0 c0 = Ok r -> mon (fst r) = true).
  { intros r0 c0 H. unfold slice_tail in H. apply bind_ok in H. destruct H as [t0 [_ H]]. apply bind_ok in H. destruct H as [[r1 c2] [_ H]].
    apply bind_ok in H. destruct H as [[t2 c3] [_ H]]. destruct (negb _); [discriminate|]. injection H as <-. exact Hm. }
  destruct (tok_eqb (tk t) KColon); [eauto|]. apply bind_ok in E. destruct E as [[rgt c2] [_ E]]. apply bind_ok in E. destruct E as [[t2 c3] [_ E]].
  destruct (tok_eqb (tk t2) KColon); [eauto|]. destruct (negb _); [discriminate|]. injection E as <-. exact Hm.
Qed.

Lemma dot_mon t v c v' c' : mon v = true -> parse_dot t v c = Ok (Some (v', c')) -> mon v' = true.
Proof.
  intros Hm E. unfold parse_dot in E. destruct (negb _); [discriminate|]. apply bind_ok in E. destruct E as [x [_ E]].
  destruct (negb _); [discriminate|]. destruct (read_word c) as [nm c1]. apply bind_ok in E. destruct E as [y [_ E]].
  destruct (ch_in isnamec y); [discriminate|]. injection E as <- <-. exact Hm.
Qed.

Lemma expr8_loop_mon e1 n : forall v c r, mon v = true -> expr8_loop e1 n v c = Ok r -> mon (fst r) = true.
Proof.
  induction n as [|n IH]; intros v c r Hm E; cbn [expr8_loop] in E; [discriminate|].
  apply bind_ok in E. destruct E as [[t c1] [_ E]].
  destruct (tk t); try (injection E as <-; exact Hm).
  - destruct (ch_in iswhite (peek c)); [injection E as <-; exact Hm|]. apply bind_ok in E. destruct E as [[o|] [E0 E]].
    + destruct o as [l2 c2]. eapply IH; [|exact E]. eapply dot_mon; eauto.
    + injection E as <-; exact Hm.
  - apply bind_ok in E. destruct E as [[args c2] [_ E]]. eapply IH; [|exact E]. exact Hm.
  - destruct (ch_in iswhite (peek c)); [injection E as <-; exact Hm|]. apply bind_ok in E. destruct E as [[l2 c2] [E0 E]].
    eapply IH; [|exact E]. apply (subscript_mon _ _ _ _ _ Hm E0).
  - apply bind_ok in E. destruct E as [[f c2] [_ E]]. apply bind_ok in E. destruct E as [[t2 c3] [_ E]]. destruct (negb _); [discriminate|].
    apply bind_ok in E. destruct E as [[args c4] [_ E]]. eapply IH; [|exact E]. cbn [mon]. destruct v; auto.
Qed.

(** The word at the start of a name. *)
Lemma ident_parse e1 c r0 p t s d1 v k : skip_white c = Cons (R r0) p t -> isnamec1 r0 = true -> read_name (Cons (R r0) p t) = (s, d1) ->
  parse_identifier e1 c = Ok (v, k) -> ch_is (peek d1) (C "{") = true \/ k = d1 /\ exists q s', v = VIdent q s'.
Proof.
  intros Hc Hr Hn E. unfold parse_identifier in E. rewrite Hc in E. unfold parse_curly_parts in E. cbn [peek ch_of_cell ch_is] in E.
  replace (r0 =? C "<") with false in E by (symmetry; apply N.eqb_neq; intros ->; discriminate). cbn [andb] in E.
  cbn [curly_loop peek ch_of_cell ch_in] in E. rewrite (namec1_namec _ Hr), Hn in E. cbn [clen curly_loop] in E.
  assert (Hm : ch_in isnamec (peek d1) = false).
  { unfold read_name in Hn. apply read_while_spells in Hn. destruct Hn as [_ [_ Hn]]. destruct d1 as [|[|x] q u]; auto. apply Hn. reflexivity. }
  rewrite Hm in E. destruct (ch_is (peek d1) (C "{")); [auto|]. right. cbn [bind] in E. injection E as <- <-. eauto.
Qed.

Lemma tget_at r c : wf c -> peek c = CR r -> In r (T ":{") -> exists t d, tget c = Ok (t, d) /\ tk t = (if r =? C ":" then KColon else KCOpen).
Proof.
  intros Hw Hp Hr. destruct c as [|[|x] p t]; try discriminate. injection Hp as ->. cbn [In] in Hr.
  destruct Hr as [<-|[<-|[]]]; do 2 eexists; split; reflexivity.
Qed.

Definition plain_first (k : tok) : bool :=
  match k with KSQuote | KDQuote | KCmp _ MCs => false | _ => true end.

(** The token at the start of a word. *)
Lemma ident_token c t1 d1 : tget c = Ok (t1, d1) -> wf c -> tk t1 = KIdent \/ (exists m, tk t1 = KCmp OIs m \/ tk t1 = KCmp OIsNot m) ->
  exists r p t, skip_white c = Cons (R r) p t /\ isnamec1 r = true /\ wf (skip_white c).
Proof.
  intros Ht Hw Hk. pose proof (tget_esafe (D := fun _ _ => True) c c Hw (sfx_refl c)) as Hs. rewrite Ht in Hs. cbn in Hs.
  destruct Hs as [d [Hb [_ Hs]]]. pose proof (blank_fun _ _ Hb) as Hd. subst d.
  assert (Hwd : wf (skip_white c)) by (eapply wf_sfx; [apply blank_sfx; exact Hb|exact Hw]).
  assert (Hl : spells (tv t1) (skip_white c) d1 /\ lexeme (tk t1) (tv t1)).
  { destruct Hk as [Hk|[m [Hk|Hk]]]; rewrite Hk in Hs; rewrite Hk; exact Hs. }
  destruct Hl as [Sp Hl].
  assert (Hx : exists r w, tv t1 = r :: w /\ isnamec1 r = true).
  { destruct Hk as [Hk|[m [Hk|Hk]]]; rewrite Hk in Hl; cbn in Hl.
    - destruct Hl as [r [w [-> [Hr _]]]]. eauto.
    - subst. rewrite Hl. do 2 eexists. split; reflexivity.
    - subst. rewrite Hl. do 2 eexists. split; reflexivity. }
  destruct Hx as [r [w [Hx Hr]]]. rewrite Hx in Sp. apply spells_head in Sp. destruct Sp as [p [t [E _]]]. exists r, p, t. auto.
Qed.

Lemma lower_s a : to_lower a = to_lower (C "S") -> isnamec1 a = true.
Proof.
  change (to_lower (C "S")) with 115. unfold to_lower, isupper, isnamec1, iswordc1, isalpha, isupper, islower, between.
  repeat match goal with |- context [if ?b then _ else _] => destruct b eqn:? end; intros; cbn in *; lia.
Qed.

Lemma lead9 e1 c v k t1 d1 : wf c -> parse_expr9 e1 c = Ok (v, k) -> tget c = Ok (t1, d1) -> plain_first (tk t1) = true ->
  (forall c r, e1 c = Ok r -> exists t d, tget c = Ok (t, d)) ->
  (exists t d, tget d1 = Ok (t, d) /\ (tk t1 = KIdent -> tk t = KCOpen)) \/ k = d1 /\ (tk t1 = KIdent -> exists q s, v = VIdent q s).
Proof.
  intros Hw E Ht Hp He. unfold parse_expr9 in E. rewrite Ht in E. cbn [bind] in E.
  assert (Hnext : tk t1 <> KIdent -> (exists t d, tget d1 = Ok (t, d)) -> (exists t d, tget d1 = Ok (t, d) /\ (tk t1 = KIdent -> tk t = KCOpen)) \/ k = d1 /\ (tk t1 = KIdent -> exists q s, v = VIdent q s)).
  { intros H1 [t [d H2]]. left. exists t, d. split; auto. congruence. }
  assert (Hlast : tk t1 <> KIdent -> k = d1 -> (exists t d, tget d1 = Ok (t, d) /\ (tk t1 = KIdent -> tk t = KCOpen)) \/ k = d1 /\ (tk t1 = KIdent -> exists q s, v = VIdent q s)).
  { intros H1 H2. right. split; auto. congruence. }
  assert (Hwd1 : wf d1).
  { pose proof (tget_esafe (D := fun _ _ => True) c c Hw (sfx_refl c)) as Hs. rewrite Ht in Hs. cbn in Hs. eapply wf_sfx; [eapply token_sfx; eauto|exact Hw]. }
  destruct (tk t1) eqn:Hk; try discriminate E; try discriminate Hp; try (apply Hlast; [discriminate|]; injection E as <- <-; reflexivity).
  - (* KCmp *) assert (Hm : m = MNone \/ m = MCi \/ m = MCs) by (destruct m; auto). destruct Hm as [->|[->| ->]]; [|destruct o; discriminate E|discriminate Hp].
    assert (Ho : o = OLt \/ o = OIs \/ o = OIsNot) by (destruct o; try discriminate E; auto). destruct Ho as [->|Ho'].
    + apply Hnext; [discriminate|]. destruct (equalci (peekn 4 d1) (T "SID>")) eqn:Eq; [|discriminate E].
      assert (Hs : exists r, peek d1 = CR r /\ isnamec1 r = true).
      { unfold peekn, equalci in Eq. destruct d1 as [|[|r] p t]; try discriminate. exists r. split; auto. change (getn 4 (Cons (R r) p t)) with (let '(s, c') := getn 3 t in (r :: s, c')) in Eq.
        destruct (getn 3 t) as [w ?]. cbn [fst map text_eqb] in Eq. apply andb_true_iff in Eq. destruct Eq as [Eq _].
        apply N.eqb_eq in Eq. exact (lower_s _ Eq). }
      destruct Hs as [r [Hpk Hr]]. destruct d1 as [|[|x] p t]; try discriminate. injection Hpk as ->.
      destruct (word_cases r p t Hwd1 Hr) as [tt [d2 [Hg _]]]. exists tt, d2. unfold tget. rewrite (skip_here _ r); auto. apply namec1_not; auto.
    + destruct (ident_token c t1 d1 Ht Hw) as [r [p [t [Hsk [Hr Hws]]]]].
      { right. exists MNone. rewrite Hk. destruct Ho' as [->| ->]; auto. }
      rewrite Hsk in Hws. destruct (word_cases r p t Hws Hr) as [tt [d2 [Hg Hcase]]].
      unfold tget in Ht. rewrite Hsk, Hg in Ht. injection Ht as -> ->.
      destruct Hcase as [Hi|[o' [m' [u [e0 [Hk' [Hu [Hou [Spu [Hnw [Hm1 Hm2]]]]]]]]]]].
      { unfold get2_ident in Hi. destruct (read_name _). injection Hi as <- <-. discriminate. }
      rewrite Hk in Hk'. injection Hk' as <- <-. destruct (Hm1 eq_refl) as [-> Hsharp].
      destruct (ch_in isnamec (peek e0)) eqn:Hn.
      * apply Hnext; [discriminate|]. assert (Hcol : peek e0 = CR (C ":")).
        { destruct e0 as [|[|x] p0 t0]; try discriminate. cbn [peek ch_of_cell ch_in ch_is] in *. unfold isnamec in Hn. f_equal. clear - Hn Hnw Hsharp.
          rewrite Hnw in Hn. cbn in *. lia. }
        destruct (tget_at (C ":") e0 Hwd1 Hcol ltac:(left; reflexivity)) as [t2 [d2 [Ht2 _]]]. eauto.
      * assert (Hrn : read_name (Cons (R r) p t) = (u, e0)).
        { apply read_while_exact; auto. cbn [In] in Hu. destruct Hu as [<-|[<-|[]]]; reflexivity. }
        assert (E' : parse_identifier e1 c = Ok (v, k)) by (destruct Ho' as [->| ->]; exact E).
        destruct (ident_parse _ _ _ _ _ _ _ _ _ Hsk Hr Hrn E') as [Hbr|[-> _]].
        { apply Hnext; [discriminate|]. apply ch_is_peek in Hbr. destruct Hbr as [p1 [u1 Hbr]].
          destruct (tget_at (C "{") e0 Hwd1) as [t2 [d2 [Ht2 _]]]; [rewrite Hbr; reflexivity|right; left; reflexivity|eauto]. }
        right. split; [reflexivity|discriminate].
  - (* ( *) apply Hnext; [discriminate|]. apply bind_ok in E. destruct E as [r [E _]]. eauto.
  - (* [ *) apply Hnext; [discriminate|]. unfold parse_list in E. apply bind_ok in E. destruct E as [[t2 d2] [E _]]. eauto.
  - (* { *) apply Hnext; [discriminate|]. unfold parse_brace in E. apply bind_ok in E. destruct E as [[t2 d2] [E _]]. eauto.
  - (* word *) destruct (ident_token c t1 d1 Ht Hw (or_introl Hk)) as [r [p [t [Hsk [Hr Hws]]]]].
    rewrite Hsk in Hws. destruct (word_cases r p t Hws Hr) as [tt [d2 [Hg Hcase]]].
    unfold tget in Ht. rewrite Hsk, Hg in Ht. injection Ht as -> ->.
    destruct Hcase as [Hi|[o' [m' [u [e0 [Hk' _]]]]]]; [|rewrite Hk in Hk'; discriminate].
    unfold get2_ident in Hi. destruct (read_name (Cons (R r) p t)) as [s d1'] eqn:Hrn. injection Hi as <- <-.
    destruct (ident_parse _ _ _ _ _ _ _ _ _ Hsk Hr Hrn E) as [Hbr|[-> Hv]]; [left|right; auto].
    apply ch_is_peek in Hbr. destruct Hbr as [p1 [u1 Hbr]].
    destruct (tget_at (C "{") d1' Hwd1) as [t2 [d2 [Ht2 Hk2]]]; [rewrite Hbr; reflexivity|right; left; reflexivity|].
    exists t2, d2. auto.
  - (* #{ *) apply Hnext; [discriminate|]. unfold parse_brace in E. apply bind_ok in E. destruct E as [[t2 d2] [E _]]. eauto.
Qed.

(** The second token of an expression, whatever its level. *)
Definition leads (t1 : token) (d1 : cursor) (v : vnode) (k : cursor) : Prop :=
  exists t2 d2, tget d1 = Ok (t2, d2) /\
    (tk t1 = KIdent -> (tk t2 = KArrow -> mon v = true) /\ (tk t2 = KComma -> k = d1)).

Lemma lead8 e1 c v k t1 d1 : wf c -> parse_expr8 e1 c = Ok (v, k) -> tget c = Ok (t1, d1) -> plain_first (tk t1) = true ->
  (forall c r, e1 c = Ok r -> exists t d, tget c = Ok (t, d)) -> leads t1 d1 v k.
Proof.
  intros Hw E Ht Hp He. unfold parse_expr8 in E. apply bind_ok in E. destruct E as [[v9 k9] [E9 E]].
  destruct (lead9 _ _ _ _ _ _ Hw E9 Ht Hp He) as [[t2 [d2 [Ht2 Hb]]]|[-> Hv]].
  - exists t2, d2. split; auto. intros Hk. rewrite (Hb Hk). split; discriminate.
  - cbn [expr8_loop] in E. apply bind_ok in E. destruct E as [[t2 d2] [Ht2 E]]. exists t2, d2. split; auto. intros Hk.
    destruct (Hv Hk) as [q [s ->]]. split; intros Hk2; rewrite Hk2 in E.
    + apply bind_ok in E. destruct E as [[f c2] [_ E]]. apply bind_ok in E. destruct E as [[t3 c3] [_ E]]. destruct (negb _); [discriminate|].
      apply bind_ok in E. destruct E as [[args c4] [_ E]]. apply (expr8_loop_mon _ _ _ _ _ (eq_refl : mon (VMethod (tp t3) (VIdent q s) (VCall (tp t3) f args)) = true) E).
    + injection E as _ <-. reflexivity.
Qed.

Lemma lead_bin sub ops c v k t1 d1 : ops KComma = None ->
  (forall v' k', sub c = Ok (v', k') -> leads t1 d1 v' k') -> bin_level sub ops c = Ok (v, k) -> leads t1 d1 v k.
Proof.
  intros Ho Hs E. unfold bin_level in E. apply bind_ok in E. destruct E as [[v' k'] [E0 E]].
  destruct (Hs _ _ E0) as [t2 [d2 [Ht2 Hi]]]. exists t2, d2. split; auto. intros Hk. destruct (Hi Hk) as [H1 H2]. split; intros Hk2.
  - apply (bin_loop_mon _ _ _ _ _ _ (H1 Hk2) E).
  - rewrite (H2 Hk2) in E. cbn [bin_loop] in E. rewrite Ht2 in E. cbn [bind] in E. rewrite Hk2, Ho in E. injection E as _ <-. reflexivity.
Qed.

Lemma lead1 f c v k t1 d1 : wf c -> parse_expr1 f c = Ok (v, k) -> tget c = Ok (t1, d1) -> plain_first (tk t1) = true -> leads t1 d1 v k.
Proof.
  intros Hw E Ht Hp. destruct f as [|f]; [discriminate|]. cbn [parse_expr1] in E. set (e1 := parse_expr1 f) in *.
  assert (He : forall c r, e1 c = Ok r -> exists t d, tget c = Ok (t, d)).
  { intros c0 r0 H0. destruct (first1 _ _ _ H0) as [t [d [Ht0 _]]]. eauto. }
  assert (H7 : forall v' k', parse_expr7 e1 c = Ok (v', k') -> leads t1 d1 v' k').
  { intros v' k' E7. unfold parse_expr7 in E7. cbn [expr7_loop] in E7. rewrite Ht in E7. cbn [bind] in E7.
    destruct (tk t1) eqn:Hk; try (eapply lead8; eauto; rewrite Hk; auto; fail);
      apply bind_ok in E7; destruct E7 as [[v2 c2] [E7 _]]; destruct (first7 _ _ _ _ E7) as [t2 [d2 [Ht2 _]]]; exists t2, d2; split; auto; rewrite Hk; discriminate. }
  assert (H5 : forall v' k', parse_expr5 e1 c = Ok (v', k') -> leads t1 d1 v' k').
  { intros v' k'. apply lead_bin; [reflexivity|]. intros v2 k2. apply lead_bin; [reflexivity|]. exact H7. }
  assert (H4 : forall v' k', parse_expr4 e1 c = Ok (v', k') -> leads t1 d1 v' k').
  { intros v' k' E4. unfold parse_expr4 in E4. apply bind_ok in E4. destruct E4 as [[v5 k5] [E5 E4]].
    destruct (H5 _ _ E5) as [t2 [d2 [Ht2 Hi]]]. exists t2, d2. split; auto. intros Hk. destruct (Hi Hk) as [G1 G2].
    apply bind_ok in E4. destruct E4 as [[t3 c3] [Ht3 E4]]. split; intros Hk2.
    - destruct (tk t3); try (injection E4 as <- <-; apply G1; auto).
      apply bind_ok in E4. destruct E4 as [[rgt c4] [_ E4]]. injection E4 as <- <-. apply G1; auto.
    - rewrite (G2 Hk2), Ht2 in Ht3. injection Ht3 as <- <-. rewrite Hk2 in E4. injection E4 as _ <-. apply G2; auto. }
  assert (H2 : forall v' k', parse_expr2 e1 c = Ok (v', k') -> leads t1 d1 v' k').
  { intros v' k'. apply lead_bin; [reflexivity|]. intros v2 k2. apply lead_bin; [reflexivity|]. exact H4. }
  unfold expr1_body in E. apply bind_ok in E. destruct E as [[v2 k2] [E2 E]].
  destruct (H2 _ _ E2) as [t2 [d2 [Ht2 Hi]]]. exists t2, d2. split; auto. intros Hk. destruct (Hi Hk) as [G1 G2].
  apply bind_ok in E. destruct E as [[t3 c3] [Ht3 E]]. split; intros Hk2.
  - destruct (tok_eqb (tk t3) KQuestion); [|injection E as <- <-; apply G1; auto].
    apply bind_ok in E. destruct E as [[l c4] [_ E]]. apply bind_ok in E. destruct E as [[t4 c5] [_ E]]. destruct (negb _); [discriminate|].
    apply bind_ok in E. destruct E as [[r c6] [_ E]]. injection E as <- <-. apply G1; auto.
  - rewrite (G2 Hk2), Ht2 in Ht3. injection Ht3 as <- <-. rewrite Hk2 in E. change (tok_eqb KComma KQuestion) with false in E. cbv iota in E.
    injection E as _ <-. apply G2; auto.
Qed.

(** * After an opening brace *)

(** What comes is not a lambda. *)
Definition ahead (c : cursor) : Prop := exists t c1, tget c = Ok (t, c1) /\
  (In (tk t) [KSQuote; KDQuote] \/
   ~ In (tk t) [KArrow; KDotDotDot] /\ exists t2 c2, tget c1 = Ok (t2, c2) /\ (tk t = KIdent -> ~ In (tk t2) [KArrow; KComma])).

Lemma tok_eqb_true a b : tok_eqb a b = true -> In b [KArrow; KComma; KDot; KCClose; KColon] -> a = b.
Proof.
  intros H Hb. cbn [In] in Hb. destruct Hb as [<-|[<-|[<-|[<-|[<-|[]]]]]]; destruct a; try discriminate H; try reflexivity;
    match type of H with tok_eqb (KCmp ?o ?m) _ = _ => destruct o, m; discriminate end.
Qed.

Lemma ahead_dict e1 lit p start c : ahead c -> parse_brace e1 lit p start c = parse_dict e1 lit p start c.
Proof.
  intros [t [c1 [Ht H]]]. unfold parse_brace. rewrite Ht. cbn [bind].
  destruct H as [H|[Hk [t2 [c2 [Ht2 Hi]]]]].
  - cbn [In] in H. destruct H as [H|[H|[]]]; rewrite <- H; reflexivity.
  - unfold tpeek. rewrite Ht2. cbn [bind].
    destruct (tk t) eqn:Ek; try (exfalso; apply Hk; cbn; tauto); try reflexivity; cbn [bind];
      try (destruct (tok_eqb (tk t2) KArrow || tok_eqb (tk t2) KComma); cbn [lambda_loop]; rewrite ?Ek; reflexivity).
    destruct (tok_eqb (tk t2) KArrow) eqn:E1; [exfalso; apply (Hi eq_refl); left; symmetry; apply (tok_eqb_true _ _ E1); cbn; auto|].
    destruct (tok_eqb (tk t2) KComma) eqn:E2; [exfalso; apply (Hi eq_refl); right; left; symmetry; apply (tok_eqb_true _ _ E2); cbn; auto|].
    reflexivity.
Qed.

(** A prefix [u] of [s ++ z] that avoids the first character of [z] is a prefix of [s]. *)
Lemma prefix_in u : forall u' s z, u ++ u' = s ++ z -> z <> [] -> ~ In (hd 0 z) u -> exists s', s = u ++ s'.
Proof.
  induction u as [|r u IH]; intros u' s z H Hz Hn; [exists s; reflexivity|].
  destruct s as [|x s].
  - cbn [app] in H. rewrite <- H in Hn. cbn [hd] in Hn. exfalso. apply Hn. left. reflexivity.
  - cbn [app] in H. injection H as -> H. destruct (IH _ _ _ H Hz) as [s' ->]; [intros Hi; apply Hn; right; exact Hi|]. exists s'. reflexivity.
Qed.

(** Two texts at the same place. *)
Lemma spells_two a b c ka kb : spells a c ka -> spells b c kb -> (exists a', a = b ++ a' /\ spells a' kb ka) \/ (exists b', b = a ++ b' /\ spells b' ka kb).
Proof.
  revert b c. induction a as [|r a IH]; intros b c Ha Hb.
  - cbn [spells] in Ha. subst c. right. exists b. auto.
  - destruct b as [|x b]; [cbn [spells] in Hb; subst c; left; exists (r :: a); auto|].
    apply spells_head in Ha. destruct Ha as [p [t [-> Ha]]]. cbn [spells] in Hb. destruct Hb as [-> Hb].
    destruct (IH _ _ Ha Hb) as [[a' [-> H]]|[b' [-> H]]]; [left; exists a'|right; exists b']; auto.
Qed.

(** A token inside [s], where [s ++ z] is the text. *)
Lemma token_inside u c d1 s z k : spells u c d1 -> spells (s ++ z) c k -> z <> [] -> ~ In (hd 0 z) u ->
  exists s', s = u ++ s' /\ spells (s' ++ z) d1 k.
Proof.
  intros Hu Hs Hz Hn. destruct (spells_two _ _ _ _ _ Hs Hu) as [[a' [E Sp]]|[b' [E Sp]]].
  - destruct (prefix_in u a' s z) as [s' ->]; auto. exists s'. split; auto. rewrite <- app_assoc in E. apply app_inv_head in E. subst a'. exact Sp.
  - destruct (prefix_in u [] (s ++ z) [hd 0 z]) as [s' H]; try discriminate; [|exact Hn|].
    2: { exfalso. rewrite H in E. rewrite <- app_assoc in E. rewrite <- (app_nil_r u) in E at 1. apply app_inv_head in E. destruct s'; [|discriminate].
         rewrite app_nil_r in H. apply Hn. rewrite <- H. apply in_or_app. right. destruct z; [congruence|left; reflexivity]. }
    exfalso. apply Hn. rewrite E. apply in_or_app. left. apply in_or_app. right. destruct z; [congruence|left; reflexivity].
Qed.

Lemma ahead_expr f c v k n s w w2 x d : parse_expr1 f c = Ok (v, k) -> shows v n -> brace_head n s -> gap w -> good_head s ->
  spells (w ++ s) c k -> gap w2 -> spells (w2 ++ [x]) k d -> In x (T ":}") -> wf c -> ahead c.
Proof.
  intros E Sh [Hm [Hs1 Hs2]] Hw Hh Sp Hw2 Sp2 Hx Wf.
  destruct (first1 _ _ _ E) as [t1 [d1 [Ht1 Ho]]]. exists t1, d1. split; auto.
  destruct (plain_first (tk t1)) eqn:Hp.
  - right. split; [destruct (tk t1); try discriminate Ho; cbn [In]; intuition discriminate|].
    destruct (lead1 _ _ _ _ _ _ Wf E Ht1 Hp) as [t2 [d2 [Ht2 Hi]]]. exists t2, d2. split; auto.
    intros Hk. destruct (Hi Hk) as [H1 H2]. cbn [In]. intros [Ha|[Ha|[]]].
    + rewrite (mon_shows _ _ Sh (H1 (eq_sym Ha))) in Hm. discriminate.
    + rewrite (H2 (eq_sym Ha)) in Sp2.
      assert (Hkx : exists kx, punct x = Some kx /\ kx <> KComma) by (cbn [In] in Hx; destruct Hx as [<-|[<-|[]]]; eexists; split; [reflexivity|discriminate|reflexivity|discriminate]).
      destruct Hkx as [kx [Hkx Hne]]. destruct (punct_get x kx w2 d1 d Hkx Hw2 Sp2) as [q Ht3]. rewrite Ht2 in Ht3. injection Ht3 as -> _. cbn [tk] in Ha. congruence.
  - assert (Hc : In (tk t1) [KSQuote; KDQuote] \/ exists o, tk t1 = KCmp o MCs).
    { destruct (tk t1); try discriminate Hp; cbn [In]; auto. destruct m; try discriminate Hp. eauto. }
    destruct Hc as [Hc|[o Hk]]; [left; exact Hc|]. exfalso.
    rewrite Hk in Ho. assert (Ho2 : o = OIs \/ o = OIsNot) by (destruct o; try discriminate Ho; auto).
    apply spells_split in Sp. destruct Sp as [c0 [Sw Sp]].
    assert (Hsk : skip_white c = c0) by exact (skip_gap w c c0 Hw Sw (head_nonwhite s c0 k Hh Sp)).
    pose proof (tget_esafe (D := fun _ _ => True) c c Wf (sfx_refl c)) as Hsafe. rewrite Ht1 in Hsafe. cbn in Hsafe. destruct Hsafe as [d0 [Hb [_ Hl]]].
    pose proof (blank_fun _ _ Hb) as Hd. rewrite Hsk in Hd. subst d0. rewrite Hk in Hl. destruct Hl as [Spt Hl].
    assert (Hin : ~ In (hd 0 (w2 ++ [x])) (tv t1)).
    { assert (Hv : In (tv t1) [T "is#"; T "isnot#"]) by (cbn in Hl; destruct Ho2 as [->| ->]; rewrite Hl; cbn; auto).
      assert (Hz : In (hd 0 (w2 ++ [x])) (32 :: 9 :: T ":}")).
      { destruct w2 as [|y w2]; cbn [app hd]; [cbn [In] in *; tauto|]. unfold gap in Hw2. cbn [forallb] in Hw2. apply andb_true_iff in Hw2. destruct Hw2 as [Hy _].
        unfold iswhite in Hy. apply orb_true_iff in Hy. cbn [In]. destruct Hy as [Hy|Hy]; apply N.eqb_eq in Hy; auto. }
      revert Hz. generalize (hd 0 (w2 ++ [x])). intros z Hz. cbn [In] in Hv, Hz.
      destruct Hv as [<-|[<-|[]]]; destruct Hz as [<-|[<-|[<-|[<-|[]]]]]; cbn; intuition discriminate. }
    destruct (token_inside (tv t1) c0 d1 s (w2 ++ [x]) d Spt (spells_app _ _ _ _ _ Sp Sp2)) as [s' [Es _]]; auto.
    { destruct w2; discriminate. }
    cbn in Hl. destruct Ho2 as [->| ->]; rewrite Hl in Es; [apply (Hs1 s'); exact Es|apply (Hs2 s'); exact Es].
Qed.

(** ** Keys of a literal dictionary *)

Definition nb (s : text) : Prop := forall z s', In z [C "z"; C "Z"] -> s <> C "0" :: z :: s'.

Lemma litkey_kinds r : is_litkey r = true -> isnamec1 r = true \/ isdigit r = true \/ r = C "-".
Proof. unfold is_litkey, isnamec1, iswordc1, isalnum, isalpha, isupper, islower, isdigit, between. cbn. lia. Qed.

Lemma gap_colon w : gap w -> exists x y, w ++ T ":" = x :: y /\ In x (32 :: 9 :: T ":").
Proof.
  intros Hw. destruct w as [|x w]; [do 2 eexists; split; [reflexivity|cbn; auto]|]. exists x, (w ++ T ":"). split; auto.
  unfold gap in Hw. cbn [forallb] in Hw. apply andb_true_iff in Hw. destruct Hw as [Hy _].
  unfold iswhite in Hy. apply orb_true_iff in Hy. cbn [In]. destruct Hy as [Hy|Hy]; apply N.eqb_eq in Hy; auto.
Qed.

Definition key_kind (k : tok) : Prop := k = KIdent \/ (exists o m, k = KCmp o m) \/ k = KNumber \/ k = KMinus \/ k = KColon.

(** The next character of a key and a colon. *)
Lemma key_next s w d k : forallb is_litkey s = true -> gap w -> spells (s ++ w ++ T ":") d k ->
  exists r, peek d = CR r /\ hd 0 (s ++ w ++ T ":") = r /\ (is_litkey r = true \/ In r (32 :: 9 :: T ":")).
Proof.
  intros Hs Hw Sp. destruct (gap_colon w Hw) as [x [y [E Hx]]]. rewrite E in *. destruct s as [|r s].
  - cbn [app] in *. apply spells_head in Sp. destruct Sp as [p [t [-> _]]]. exists x. auto.
  - cbn [app forallb] in *. apply andb_true_iff in Hs. apply spells_head in Sp. destruct Sp as [p [t [-> _]]]. exists r. split; auto. split; auto. left; apply Hs.
Qed.

Lemma key_tok s w d k : forallb is_litkey s = true -> nb s -> gap w -> spells (s ++ w ++ T ":") d k -> wf d ->
  exists t d2, tget d = Ok (t, d2) /\ key_kind (tk t).
Proof.
  intros Hs Hb Hw Sp Wf. destruct s as [|r s].
  { cbn [app] in Sp. destruct (punct_get (C ":") KColon w d k eq_refl Hw Sp) as [q Ht]. do 2 eexists. split; [exact Ht|]. unfold key_kind; cbn; auto. }
  cbn [app forallb] in *. apply andb_true_iff in Hs. destruct Hs as [Hr Hs]. apply spells_head in Sp. destruct Sp as [p [t [-> Sp]]].
  destruct (key_next s w t k Hs Hw Sp) as [r2 [Hp2 [Hh2 Hr2]]]. unfold tget, key_kind.
  destruct (litkey_kinds r Hr) as [Hn|[Hd| ->]].
  - rewrite (skip_here _ r) by (auto; apply namec1_not; auto).
    destruct (word_cases r p t Wf Hn) as [tt [d1 [Hg Hc]]]. exists tt, d1. split; auto.
    destruct Hc as [Hi|[o [m [u [e [Hk _]]]]]]; [|rewrite Hk; eauto 8]. unfold get2_ident in Hi. destruct (read_name _). injection Hi as <- <-. auto.
  - rewrite (skip_here _ r) by (auto; apply digit_not_white; auto).
    destruct (digit_cases r p t Wf Hd) as [tt [d1 [Hg [Hk _]]]]; [|exists tt, d1; auto].
    intros ->. rewrite Hp2. cbn [ch_is].
    assert (Hz : forall z, In z [C "z"; C "Z"] -> (r2 =? z) = false).
    { intros z Hz. apply N.eqb_neq. intros ->. destruct s as [|x s].
      - cbn [app] in Hh2. destruct (gap_colon w Hw) as [x0 [y0 [E0 Hx0]]]. rewrite E0 in Hh2. cbn [hd] in Hh2. subst x0.
        cbn [In] in Hx0, Hz. destruct Hz as [<-|[<-|[]]]; destruct Hx0 as [H|[H|[H|[]]]]; discriminate H.
      - cbn [app hd] in Hh2. subst x. apply (Hb z s Hz). reflexivity. }
    split; apply Hz; cbn; auto.
  - rewrite (skip_here _ (C "-")) by reflexivity. rewrite get2_minus. rewrite p_S, p_0 by auto. cbn [bind]. rewrite Hp2. cbn [ch_is].
    replace (r2 =? C ">") with false.
    + unfold tok_fix. cbn [length seek_cur bind]. do 2 eexists. split; [reflexivity|]. auto.
    + symmetry. apply N.eqb_neq. intros ->. destruct Hr2 as [H|H]; [discriminate|cbn in H; intuition discriminate].
Qed.

Lemma litkey_loop_exact s : forall c k, spells s c k -> forallb is_litkey s = true ->
  (exists r, peek k = CR r /\ is_litkey r = false) -> litkey_loop c = Ok (s, k).
Proof.
  induction s as [|r s IH]; intros c k Sp Hs Hk.
  - cbn [spells] in Sp. subst c. destruct Hk as [r [Hk Hr]]. destruct k as [|[|x] p t]; try discriminate. injection Hk as ->.
    cbn [litkey_loop]. rewrite Hr. reflexivity.
  - apply spells_head in Sp. destruct Sp as [p [t [-> Sp]]]. cbn [forallb] in Hs. apply andb_true_iff in Hs. destruct Hs as [Hr Hs].
    cbn [litkey_loop]. rewrite Hr. cbn [negb]. rewrite (IH t k); auto.
Qed.

Lemma litkey_parse w s w2 c k1 k : gap w -> litkey_text s -> gap w2 -> spells (w ++ s) c k1 -> spells (w2 ++ T ":") k1 k ->
  exists p, parse_dict_literal_key c = Ok (VLit LString p (T "'" ++ s ++ T "'"), k1).
Proof.
  intros Hw [Hn Hs] Hw2 Sp Sp2. apply spells_split in Sp. destruct Sp as [d [S1 Sp]]. destruct s as [|r s]; [congruence|].
  assert (Hk : exists x, peek k1 = CR x /\ is_litkey x = false).
  { destruct (gap_colon w2 Hw2) as [x [y [E Hx]]]. rewrite E in Sp2. apply spells_head in Sp2. destruct Sp2 as [p [t [-> _]]]. exists x. split; auto.
    cbn [In] in Hx. destruct Hx as [<-|[<-|[<-|[]]]]; reflexivity. }
  cbn [forallb] in Hs. apply andb_true_iff in Hs. destruct Hs as [Hr Hs]. apply spells_head in Sp. destruct Sp as [p [t [-> Sp]]].
  unfold parse_dict_literal_key.
  rewrite (skip_gap w c _ Hw S1).
  - cbn [peek ch_of_cell]. change (is_litkey r) with (isalnum r || (r =? C "_") || (r =? C "-")). rewrite Hr. cbn [seek_cur bind].
    rewrite (litkey_loop_exact s t k1) by auto. cbn [bind]. eexists. reflexivity.
  - cbn [peek ch_of_cell ch_in]. clear - Hr. unfold iswhite, isalnum, isalpha, isupper, islower, isdigit, between in *. cbn in *. lia.
Qed.

Lemma forallb_not (f : N -> bool) s x : forallb f s = true -> f x = false -> ~ In x s.
Proof. intros H Hx Hi. rewrite forallb_forall in H. rewrite (H x Hi) in Hx. discriminate. Qed.

Lemma forallb_imp (f g : N -> bool) s : (forall r, f r = true -> g r = true) -> forallb f s = true -> forallb g s = true.
Proof. intros H Hs. rewrite forallb_forall in *. auto. Qed.

Lemma number_chars u x : number_text u -> In x (32 :: 9 :: T ":") -> ~ In x u.
Proof.
  intros Hu Hx. set (g := fun r => numc r || (r =? C "+") || (r =? C "-")).
  assert (Hg : forallb g u = true).
  { assert (D : forall s, some_of isdigit s -> forallb g s = true).
    { intros s [_ H]. eapply forallb_imp; [|exact H]. intros r Hr. unfold g. rewrite (num_digit _ Hr). reflexivity. }
    destruct Hu as [s H|a b H1 H2|a b e sg x0 H1 H2 He Hsg H3|x0 s Hx0 [_ H]|x0 s Hx0 [_ H]].
    - auto.
    - rewrite forallb_app. cbn [app forallb]. rewrite (D _ H1), (D _ H2). reflexivity.
    - rewrite forallb_app. cbn [app forallb]. rewrite forallb_app. cbn [forallb]. rewrite forallb_app. rewrite (D _ H1), (D _ H2), (D _ H3).
      cbn [In] in He, Hsg. destruct He as [<-|[<-|[]]]; destruct Hsg as [<-|[<-|[<-|[]]]]; reflexivity.
    - cbn [forallb]. rewrite (forallb_imp isxdigit g s) by (auto; intros r Hr; unfold g; rewrite (num_xdigit _ Hr); reflexivity).
      cbn [In] in Hx0. destruct Hx0 as [<-|[<-|[]]]; reflexivity.
    - cbn [forallb]. rewrite (forallb_imp isbdigit g s) by (auto; intros r Hr; unfold g; rewrite (num_bdigit _ Hr); reflexivity).
      cbn [In] in Hx0. destruct Hx0 as [<-|[<-|[]]]; reflexivity. }
  apply (forallb_not g); auto. cbn [In] in Hx. destruct Hx as [<-|[<-|[<-|[]]]]; reflexivity.
Qed.

Lemma litkey_ahead w s w2 c k : gap w -> litkey_text s -> no_blob s -> gap w2 -> spells (w ++ s ++ w2 ++ T ":") c k -> wf c ->
  (isnamec1 (hd 0 s) = true -> w2 = [] -> ch_in iswhite (peek k) = true) ->
  (exists t d, tget k = Ok (t, d) /\ opens (tk t) = true) ->
  (exists t c1, tget c = Ok (t, c1) /\ tok_eqb (tk t) KCClose = false) /\ ahead c.
Proof.
  intros Hw [Hne Hs] Hnb Hw2 Sp Wf Hcol Hval. apply spells_split in Sp. destruct Sp as [d [S1 Sp]].
  change (forallb is_litkey s = true) in Hs.
  destruct s as [|r s0] eqn:Es; [congruence|]. rewrite <- Es in *. pose proof Sp as Sp0. rewrite Es in Sp0. cbn [app] in Sp0. apply spells_head in Sp0.
  destruct Sp0 as [p [t [Hd Sp0]]]. pose proof (spells_wf _ _ _ S1 Wf) as Wfd.
  assert (Hr : is_litkey r = true) by (rewrite Es in Hs; cbn [forallb] in Hs; apply andb_true_iff in Hs; apply Hs).
  assert (Hs0 : forallb is_litkey s0 = true) by (rewrite Es in Hs; cbn [forallb] in Hs; apply andb_true_iff in Hs; apply Hs).
  assert (Hsk : skip_white c = d).
  { apply (skip_gap w); auto. rewrite Hd. cbn [peek ch_of_cell ch_in]. clear - Hr. unfold is_litkey, iswhite, isalnum, isalpha, isupper, islower, isdigit, between in *. cbn in *. lia. }
  assert (Hnbs : nb s) by (intros z s' Hz E; apply (Hnb (T "0") z s'); cbn [In]; auto).
  destruct (key_tok s w2 d k Hs Hnbs Hw2 Sp Wfd) as [t1 [d1 [Ht1 Hk1]]].
  assert (Hcc : tok_eqb (tk t1) KCClose = false).
  { destruct (tok_eqb (tk t1) KCClose) eqn:E; auto. apply tok_eqb_true in E; [|cbn; auto]. rewrite E in Hk1. unfold key_kind in Hk1.
    destruct Hk1 as [H|[[o [m H]]|[H|[H|H]]]]; discriminate. }
  assert (Hskd : skip_white d = d).
  { apply (skip_gap []); try reflexivity. rewrite Hd. cbn [peek ch_of_cell ch_in]. clear - Hr. unfold is_litkey, iswhite, isalnum, isalpha, isupper, islower, isdigit, between in *. cbn in *. lia. }
  assert (Htc : tget c = Ok (t1, d1)) by (unfold tget in *; rewrite Hsk; rewrite Hskd in Ht1; exact Ht1).
  split; [eauto|]. exists t1, d1. split; auto. right.
  assert (Hwd1 : wf d1).
  { pose proof (tget_esafe (D := fun _ _ => True) c c Wf (sfx_refl c)) as Hsf. rewrite Htc in Hsf. cbn in Hsf. eapply wf_sfx; [eapply token_sfx; eauto|exact Wf]. }
  split.
  { unfold key_kind in Hk1. cbn [In]. intros Hi. destruct Hk1 as [H|[[o [m H]]|[H|[H|H]]]]; rewrite H in Hi; intuition discriminate. }
  destruct (gap_colon w2 Hw2) as [zx [zy [Ez Hzx]]].
  assert (Hz : w2 ++ T ":" <> []) by (destruct w2; discriminate).
  assert (Hsecond : forall s', s = tv t1 ++ s' \/ True -> forallb is_litkey s' = true -> nb s' -> spells (s' ++ w2 ++ T ":") d1 k ->
    exists t2 c2, tget d1 = Ok (t2, c2) /\ (tk t1 = KIdent -> ~ In (tk t2) [KArrow; KComma])).
  { intros s' _ Hls Hnb' Sp'. destruct (key_tok s' w2 d1 k Hls Hnb' Hw2 Sp' Hwd1) as [t2 [c2 [Ht2 Hk2]]]. exists t2, c2. split; auto.
    intros _. unfold key_kind in Hk2. cbn [In]. intros Hi. destruct Hk2 as [H|[[o [m H]]|[H|[H|H]]]]; rewrite H in Hi; intuition discriminate. }
  assert (Hhead : forall s' (f : N -> bool), spells (s' ++ w2 ++ T ":") d1 k -> ch_in f (peek d1) = false -> f (C "0") = true -> nb s').
  { intros s' f Sp' Hf H0 z s'' _ ->. cbn [app] in Sp'. apply spells_head in Sp'. destruct Sp' as [p1 [u1 [-> _]]]. cbn [peek ch_of_cell ch_in] in Hf. congruence. }
  assert (Hpart : forall a s', s = a ++ s' -> forallb is_litkey s' = true).
  { intros a s' ->. rewrite forallb_app in Hs. apply andb_true_iff in Hs. apply Hs. }
  unfold tget in Ht1. rewrite Hskd, Hd in Ht1.
  destruct (litkey_kinds r Hr) as [Hn|[Hdg| ->]].
  - rewrite Hd in Wfd. destruct (word_cases r p t Wfd Hn) as [tt [dd [Hg Hc]]]. rewrite Hg in Ht1. injection Ht1 as -> ->.
    destruct Hc as [Hi|[o [m [u [e [Hk [Hu [_ [Spu [Hnw [Hm1 Hm2]]]]]]]]]]].
    + unfold get2_ident in Hi. destruct (read_name (Cons (R r) p t)) as [nm dn] eqn:Hrn. injection Hi as <- <-. unfold read_name in Hrn.
      apply read_while_spells in Hrn. destruct Hrn as [Spn [Hnm Hmax]]. rewrite <- Hd in Spn.
      assert (Hmx : ch_in isnamec (peek dn) = false) by (destruct dn as [|[|x] q y]; auto; apply Hmax; reflexivity).
      destruct (in_dec N.eq_dec (hd 0 (w2 ++ T ":")) nm) as [Hin|Hin].
      * assert (Hw20 : w2 = []).
        { destruct w2 as [|y w2]; auto. exfalso. cbn [app hd] in Hin. unfold gap in Hw2. cbn [forallb] in Hw2. apply andb_true_iff in Hw2. destruct Hw2 as [Hy _].
          rewrite forallb_forall in Hnm. specialize (Hnm _ Hin). clear - Hy Hnm. unfold iswhite, isnamec, iswordc, isalnum, isalpha, isupper, islower, isdigit, between in *. cbn in *. lia. }
        subst w2. cbn [app] in *. assert (Hwk : ch_in iswhite (peek k) = true) by (apply Hcol; auto; rewrite Es; exact Hn).
        assert (dn = k).
        { destruct (spells_two _ _ _ _ _ Sp Spn) as [[a' [E Sa]]|[b' [E Sb]]].
          - destruct a' as [|y a']; [exact Sa|]. exfalso.
            destruct (exists_last (l := y :: a') ltac:(discriminate)) as [a'' [x0 E']]. rewrite E', app_assoc in E. apply app_inj_tail in E. destruct E as [E _].
            rewrite E in Hs. rewrite forallb_app in Hs. apply andb_true_iff in Hs. destruct Hs as [Hs _].
            apply (forallb_not _ _ (C ":") Hs eq_refl). exact Hin.
          - destruct b' as [|y b']; [symmetry; exact Sb|]. exfalso. apply spells_head in Sb. destruct Sb as [p1 [u1 [-> _]]].
            rewrite E, forallb_app in Hnm. apply andb_true_iff in Hnm. destruct Hnm as [_ Hnm]. cbn [forallb] in Hnm. apply andb_true_iff in Hnm. destruct Hnm as [Hy _].
            cbn [peek ch_of_cell ch_in] in Hwk. clear - Hy Hwk. unfold iswhite, isnamec, iswordc, isalnum, isalpha, isupper, islower, isdigit, between in *. cbn in *. lia. }
        subst dn. destruct Hval as [t2 [c2 [Ht2 Ho]]]. exists t2, c2. split; auto. intros _. cbn [In]. intros Hx. destruct Hx as [Hx|[Hx|[]]]; rewrite <- Hx in Ho; discriminate.
      * destruct (token_inside nm d dn s (w2 ++ T ":") k Spn Sp Hz Hin) as [s' [E Sp']].
        apply (Hsecond s'); auto; [eapply Hpart; eauto|]. apply (Hhead s' isnamec); auto.
    + rewrite <- Hd in Spu.
      assert (Hzu : ~ In (hd 0 (w2 ++ T ":")) u).
      { rewrite Ez. cbn [hd]. cbn [In] in Hu, Hzx. destruct Hu as [<-|[<-|[]]]; destruct Hzx as [<-|[<-|[<-|[]]]]; cbn; intuition discriminate. }
      destruct (token_inside u d e s (w2 ++ T ":") k Spu Sp Hz Hzu) as [s' [E Sp']].
      assert (Hm : m = MNone \/ m <> MNone) by (destruct m; auto; right; discriminate). destruct Hm as [Hm|Hm].
      * destruct (Hm1 Hm) as [-> _]. apply (Hsecond s'); auto; [eapply Hpart; eauto|]. apply (Hhead s' iswordc); auto.
      * exfalso. destruct (Hm2 Hm) as [x [Hx Spx]]. rewrite <- Hd in Spx. apply spells_split in Spx. destruct Spx as [e' [Spu' Spx]].
        pose proof (spells_fun _ _ _ _ Spu Spu') as <-. destruct (key_next s' w2 e k (Hpart _ _ E) Hw2 Sp') as [r2 [Hp2 [_ Hr2]]].
        apply spells_head in Spx. destruct Spx as [p1 [u1 [-> _]]]. cbn [peek ch_of_cell] in Hp2. injection Hp2 as ->.
        cbn [In] in Hx. destruct Hx as [<-|[<-|[]]]; (destruct Hr2 as [Hr2|Hr2]; [discriminate|cbn in Hr2; intuition discriminate]).
  - rewrite Hd in Wfd. destruct (digit_cases r p t Wfd Hdg) as [tt [dd [Hg [Hk H0]]]].
    { intros ->. assert (Hz' : forall z, In z [C "z"; C "Z"] -> ch_is (peek t) z = false); [|split; apply Hz'; cbn; auto].
      intros z Hzz. destruct (key_next s0 w2 t k Hs0 Hw2 Sp0) as [r2 [Hp2 [Hh2 Hr2]]]. rewrite Hp2. cbn [ch_is]. apply N.eqb_neq. intros ->.
      destruct s0 as [|x s1].
      - cbn [app] in Hh2. rewrite Ez in Hh2. cbn [hd] in Hh2. subst zx. cbn [In] in Hzx, Hzz. destruct Hzz as [<-|[<-|[]]]; destruct Hzx as [H|[H|[H|[]]]]; discriminate H.
      - cbn [app hd] in Hh2. subst x. apply (Hnbs z s1 Hzz). exact Es. }
    rewrite Hg in Ht1. injection Ht1 as -> ->.
    pose proof (tget_esafe (D := fun _ _ => True) c c Wf (sfx_refl c)) as Hsf. rewrite Htc in Hsf. cbn in Hsf. destruct Hsf as [d0 [Hb [_ Hl]]].
    pose proof (blank_fun _ _ Hb) as Hd0. rewrite Hsk in Hd0. subst d0. rewrite Hk in Hl. destruct Hl as [Spt Hl]. cbn in Hl.
    destruct (token_inside (tv t1) d d1 s (w2 ++ T ":") k Spt Sp Hz) as [s' [E Sp']].
    { apply number_chars; auto. rewrite Ez. exact Hzx. }
    apply (Hsecond s'); auto; [eapply Hpart; eauto|]. apply (Hhead s' (fun x => x =? C "0")); auto.
  - assert (d1 = t /\ tk t1 = KMinus) as [-> Hk].
    { rewrite get2_minus in Ht1. rewrite Hd in Wfd. rewrite p_S, p_0 in Ht1 by auto. cbn [bind] in Ht1.
      destruct (ch_is (peek t) (C ">")) eqn:E.
      - exfalso. unfold tok_fix in Ht1. destruct (seek_cur _ _); try discriminate. cbn [bind] in Ht1. injection Ht1 as <- <-. cbn [tk] in Hk1.
        unfold key_kind in Hk1. destruct Hk1 as [H|[[o [m H]]|[H|[H|H]]]]; discriminate.
      - unfold tok_fix in Ht1. cbn [length seek_cur bind] in Ht1. injection Ht1 as <- <-. auto. }
    apply (Hsecond s0); auto. intros z s' Hzz E. apply (Hnb (T "-0") z s'); cbn [In]; auto. rewrite Es, E. reflexivity.
Qed.
