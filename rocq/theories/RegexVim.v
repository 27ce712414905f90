(** The Go patterns of the table mean, on plain texts, what the Vim patterns mean. *)
From Coq Require Import Lia ZifyBool ZifyNat ZifyN.
From Verif Require Import Base CharClass CmdParser Regex RegexTable RegexProof.

Definition plain_chars : list N := 9 :: map N.of_nat (seq 32 95).
Lemma plain_char c : c = 9 \/ 32 <= c < 127 -> In c plain_chars.
Proof.
  intros [->|H]; [left; reflexivity|right].
  apply in_map_iff. exists (N.to_nat c). split; [lia|]. apply in_seq. lia.
Qed.
Lemma plain_all (f : N -> bool) s c :
  forallb f plain_chars = true -> plain s -> In c s -> f c = true.
Proof. intros Hf Hs Hc. rewrite forallb_forall in Hf. apply Hf, plain_char, Hs, Hc. Qed.
Lemma plain_app a b : plain (a ++ b) <-> plain a /\ plain b.
Proof.
  unfold plain. split.
  - intro H. split; intros c Hc; apply H, in_app_iff; auto.
  - intros [Ha Hb] c Hc. apply in_app_iff in Hc as [Hc|Hc]; auto.
Qed.

(** Matches of [r] start (end) with a word character. *)
Definition all_word (neg : bool) (rs : list (N * N)) : bool :=
  forallb (fun c => implb (in_class neg rs c) (go_word c)) plain_chars.
Fixpoint head_word (r : re) : bool :=
  match r with
  | Chr neg rs => all_word neg rs
  | Alt r q => head_word r && head_word q
  | Seq r q => head_word r
  | _ => false
  end.
Fixpoint tail_word (r : re) : bool :=
  match r with
  | Chr neg rs => all_word neg rs
  | Alt r q => tail_word r && tail_word q
  | Seq r q => tail_word q || (match q with Eps => tail_word r | _ => false end)
  | _ => false
  end.
Lemma head_ok word r a s b : mat word r a s b -> head_word r = true -> plain s ->
  exists c t, s = c :: t /\ go_word c = true.
Proof.
  intro M. induction M; cbn [head_word]; intros Hh Hp; try discriminate.
  - exists c, []. split; auto. pose proof (plain_all _ _ c Hh Hp (or_introl eq_refl)) as X. cbn in X.
    rewrite H in X. exact X.
  - apply plain_app in Hp as [Hs Ht]. destruct IHM1 as [c [u [-> Hc]]]; auto.
    exists c, (u ++ t). auto.
  - apply andb_true_iff in Hh as [H1 H2]. auto.
  - apply andb_true_iff in Hh as [H1 H2]. auto.
Qed.
Lemma tail_ok word r a s b : mat word r a s b -> tail_word r = true -> plain s ->
  exists t c, s = t ++ [c] /\ go_word c = true.
Proof.
  intro M. induction M; cbn [tail_word]; intros Hh Hp; try discriminate.
  - exists [], c. split; auto. pose proof (plain_all _ _ c Hh Hp (or_introl eq_refl)) as X. cbn in X.
    rewrite H in X. exact X.
  - apply plain_app in Hp as [Hs Ht]. apply orb_true_iff in Hh as [H|H].
    + destruct IHM2 as [u [c [-> Hc]]]; auto. exists (s ++ u), c. rewrite app_assoc. auto.
    + destruct q; try discriminate. inversion M2; subst. rewrite app_nil_r. auto.
  - apply andb_true_iff in Hh as [H1 H2]. auto.
  - apply andb_true_iff in Hh as [H1 H2]. auto.
Qed.

(** The same pattern, up to the characters that are not plain and to the kind of the edge
    next to a word. *)
Definition same_class (neg : bool) (rs : list (N * N)) (neg' : bool) (rs' : list (N * N)) : bool :=
  forallb (fun c => Bool.eqb (in_class neg rs c) (in_class neg' rs' c)) plain_chars.
(** [p]: the character before is a word character. *)
Fixpoint like (p : bool) (g v : re) : bool :=
  match g, v with
  | Eps, Eps | Bol, Bol | Eol, Eol => true
  | Chr neg rs, Chr neg' rs' => same_class neg rs neg' rs'
  | Star g, Star v => like false g v
  | Alt g h, Alt v w => like p g v && like p h w
  | Edge, WordEnd => p
  | Seq g h, Seq v w =>
      (match g, v with Edge, WordBegin => head_word h | _, _ => like p g v end) && like (tail_word g) h w
  | _, _ => false
  end.
Lemma like_seq p g h v w : like p (Seq g h) (Seq v w) = true ->
  like (tail_word g) h w = true /\
  ((g = Edge /\ v = WordBegin /\ head_word h = true) \/ like p g v = true).
Proof.
  intro H. cbn [like] in H. apply andb_true_iff in H as [H1 H2]. split; auto.
  destruct g; auto. destruct v; auto.
Qed.

Lemma mat_seq word r q a s b : mat word (Seq r q) a s b <->
  exists s1 s2, s = s1 ++ s2 /\ mat word r a s1 (s2 ++ b) /\ mat word q (a ++ s1) s2 b.
Proof.
  split.
  - intro H. inversion H; subst. eauto.
  - intros [s1 [s2 [-> [H1 H2]]]]. constructor; auto.
Qed.
Lemma mat_alt word r q a s b : mat word (Alt r q) a s b <-> mat word r a s b \/ mat word q a s b.
Proof. split; [intro H; inversion H; auto|intros [H|H]; [apply m_left|apply m_right]; auto]. Qed.
Lemma mat_chr word neg rs a s b :
  mat word (Chr neg rs) a s b <-> exists c, s = [c] /\ in_class neg rs c = true.
Proof. split; [intro H; inversion H; eauto|intros [c [-> H]]; constructor; auto]. Qed.
Lemma mat_edge word a s b :
  mat word Edge a s b <-> s = [] /\ word_before word a <> word_behind word b.
Proof. split; [intro H; inversion H; auto|intros [-> H]; constructor; auto]. Qed.
Lemma mat_begin word a s b :
  mat word WordBegin a s b <-> s = [] /\ word_before word a = false /\ word_behind word b = true.
Proof. split; [intro H; inversion H; auto|intros [-> [H H']]; constructor; auto]. Qed.
Lemma mat_end word a s b :
  mat word WordEnd a s b <-> s = [] /\ word_before word a = true /\ word_behind word b = false.
Proof. split; [intro H; inversion H; auto|intros [-> [H H']]; constructor; auto]. Qed.

Section Agree.
Context (kw : N -> bool) (Hkw : keywords kw).

Lemma kw_plain s c : plain s -> In c s -> kw c = go_word c.
Proof. intros Hs Hc. apply Hkw. destruct (Hs c Hc); lia. Qed.
Lemma before_plain a : plain a -> word_before kw a = word_before go_word a.
Proof.
  intro H. unfold word_before. destruct (rev a) as [|c l] eqn:E; auto.
  apply (kw_plain a); auto. apply in_rev. rewrite E. left. reflexivity.
Qed.
Lemma behind_plain b : plain b -> word_behind kw b = word_behind go_word b.
Proof. intro H. destruct b as [|c l]; auto. apply (kw_plain (c :: l)); [auto|left; reflexivity]. Qed.
Lemma before_tail a t c : word_before go_word (a ++ t ++ [c]) = go_word c.
Proof. rewrite app_assoc. apply before_snoc. Qed.

Lemma like_mat : forall g p v, like p g v = true ->
  forall a s b, plain (a ++ s ++ b) -> (p = true -> word_before go_word a = true) ->
  mat go_word g a s b <-> mat kw v a s b.
Proof.
  induction g as [|neg rs|g IHg h IHh|g IHg h IHh|g IHg| | | | |]; intros p v Hl a s b Hp Hb;
    try (destruct v; discriminate Hl).
  - destruct v; try discriminate Hl. split; intro H; inversion H; constructor.
  - destruct v as [|neg' rs'| | | | | | | |]; try discriminate Hl. cbn [like] in Hl.
    rewrite !mat_chr. apply plain_app in Hp as [_ Hp]. apply plain_app in Hp as [Hp _].
    assert (E : forall c, In c s -> in_class neg rs c = in_class neg' rs' c).
    { intros c Hc. apply eqb_prop. apply (plain_all _ s c Hl Hp Hc). }
    split; intros [c [-> H]]; exists c; (split; [reflexivity|]);
      [rewrite <- E by (left; reflexivity)|rewrite E by (left; reflexivity)]; exact H.
  - destruct v as [| |v w| | | | | | |]; try discriminate Hl.
    apply like_seq in Hl as [Hh Hg]. rewrite !mat_seq.
    split; intros [s1 [s2 [-> [H1 H2]]]]; exists s1, s2; (split; [reflexivity|]);
      rewrite <- app_assoc in Hp.
    + assert (Hps : plain a /\ plain s1 /\ plain s2 /\ plain b) by (rewrite !plain_app in Hp; tauto).
      destruct Hps as [Pa [P1 [P2 Pb]]].
      split.
      * destruct Hg as [[-> [-> Hw]]|Hg]; [|apply (IHg p); auto].
        apply mat_edge in H1 as [-> He]. apply mat_begin. split; auto.
        rewrite before_plain, behind_plain by (rewrite ?plain_app; auto).
        destruct (head_ok _ _ _ _ _ H2 Hw P2) as [c [t [-> Hc]]].
        cbn in *. rewrite Hc in *. split; auto. destruct (word_before go_word a); congruence.
      * apply (IHh (tail_word g)); auto; [rewrite !plain_app; auto|].
        intro Ht. destruct (tail_ok _ _ _ _ _ H1 Ht P1) as [t [c [-> Hc]]]. rewrite before_tail. exact Hc.
    + assert (Hps : plain a /\ plain s1 /\ plain s2 /\ plain b) by (rewrite !plain_app in Hp; tauto).
      destruct Hps as [Pa [P1 [P2 Pb]]].
      assert (H3 : mat go_word g a s1 (s2 ++ b)).
      { destruct Hg as [[-> [-> Hw]]|Hg]; [|apply (IHg p v); auto].
        apply mat_begin in H1 as [-> [He He']]. apply mat_edge. split; auto.
        rewrite before_plain in He by auto. rewrite behind_plain in He' by (rewrite ?plain_app; auto). congruence. }
      split; auto. apply (IHh (tail_word g) w); auto; [rewrite !plain_app; auto|].
      intro Ht. destruct (tail_ok _ _ _ _ _ H3 Ht P1) as [t [c [-> Hc]]]. rewrite before_tail. exact Hc.
  - destruct v; try discriminate Hl. cbn [like] in Hl. apply andb_true_iff in Hl as [H1 H2].
    rewrite !mat_alt, (IHg p v1), (IHh p v2) by auto. tauto.
  - destruct v as [| | | |v| | | | |]; try discriminate Hl. cbn [like] in Hl. clear Hb.
    split; intro H.
    + remember (Star g) as r eqn:Er. induction H; inversion Er; subst; [constructor|].
      rewrite <- app_assoc in Hp. apply m_more.
      * apply (IHg false); auto. discriminate.
      * apply IHmat2; auto. rewrite <- app_assoc. auto.
    + remember (Star v) as r eqn:Er. induction H; inversion Er; subst; [constructor|].
      rewrite <- app_assoc in Hp. apply m_more.
      * apply (IHg false v); auto. discriminate.
      * apply IHmat2; auto. rewrite <- app_assoc. auto.
  - destruct v; try discriminate Hl. split; intro H; inversion H; constructor.
  - destruct v; try discriminate Hl. split; intro H; inversion H; constructor.
  - destruct v; try discriminate Hl. cbn [like] in Hl. specialize (Hb Hl).
    assert (Hps : plain a /\ plain b) by (rewrite !plain_app in Hp; tauto). destruct Hps as [Pa Pb].
    rewrite mat_edge, mat_end, before_plain, behind_plain, Hb by auto.
    destruct (word_behind go_word b); intuition congruence.
Qed.

Lemma like_matches g v s : like false g v = true -> plain s -> (matches go_word g s <-> matches kw v s).
Proof.
  intros Hl Hp. split; intros [a [m [b [-> H]]]]; exists a, m, b; (split; [reflexivity|]).
  - apply (like_mat g false v); auto. discriminate.
  - apply (like_mat g false v); auto. discriminate.
Qed.
End Agree.

Definition table_like (e : text * text) : bool :=
  match vim_pattern (fst e), go_pattern (snd e) with
  | Some v, Some g => like false g v
  | _, _ => false
  end.
Definition odd_ones : list text := [T "\v^d%[elete][lp]$"; T "^++bad=\(keep\|drop\|.\)\>"].
Lemma table_alike : forallb (fun e => mem_text (fst e) odd_ones || table_like e) patVim2Go = true.
Proof. vm_compute. reflexivity. Qed.

(** Every test of the parser answers, for a plain text, as the Vim pattern in its call. *)
Theorem tests_as_in_vim k f : In (k, f) parser_tests -> ~ In k odd_ones ->
  exists v, vim_pattern k = Some v /\
    forall kw s, keywords kw -> plain s -> (f s = true <-> matches kw v s).
Proof.
  intros Hin Hodd. pose proof tests_as_in_table as Ht. rewrite Forall_forall in Ht.
  destruct (Ht _ Hin) as [t [g [Hp [Hg Hf]]]]. cbn [fst snd] in *.
  assert (He : In (k, t) patVim2Go).
  { unfold pattern_of in Hp. revert Hp. generalize patVim2Go as l. induction l as [|[k0 v0] l IH]; [discriminate|].
    cbn [find_pattern]. destruct (text_eqb k0 k) eqn:E.
    - intro H. injection H as ->. left. f_equal.
      assert (X : In k0 [k]) by (apply mem_text_iff; cbn; rewrite E; reflexivity).
      destruct X as [X|[]]. auto.
    - intro H. right. auto. }
  pose proof table_alike as Ha. rewrite forallb_forall in Ha. specialize (Ha _ He).
  cbn [fst] in Ha. apply orb_true_iff in Ha as [Ha|Ha]; [apply mem_text_iff in Ha; contradiction|].
  unfold table_like in Ha. cbn [fst snd] in Ha. rewrite Hg in Ha.
  destruct (vim_pattern k) as [v|]; [|discriminate]. exists v. split; auto.
  intros kw s Hkw Hs. rewrite Hf. apply like_matches; auto.
Qed.

(** The same for all entries of the table, used or not. *)
Theorem table_as_in_vim k t : In (k, t) patVim2Go -> ~ In k odd_ones ->
  exists g v, go_pattern t = Some g /\ vim_pattern k = Some v /\
    forall kw s, keywords kw -> plain s -> (matches go_word g s <-> matches kw v s).
Proof.
  intros He Hodd. pose proof table_alike as Ha. rewrite forallb_forall in Ha. specialize (Ha _ He).
  cbn [fst] in Ha. apply orb_true_iff in Ha as [Ha|Ha]; [apply mem_text_iff in Ha; contradiction|].
  unfold table_like in Ha. cbn [fst snd] in Ha.
  destruct (vim_pattern k) as [v|]; [|discriminate]. destruct (go_pattern t) as [g|]; [|discriminate].
  exists g, v. repeat split; auto; apply like_matches; auto.
Qed.

(** * The two others *)
Fixpoint opts (w : text) : re := match w with [] => Eps | c :: w' => opt (Seq (chr c) (opts w')) end.
Lemma from_opts word w : forall P a s,
  from word (opts w) P a s <-> exists x y t, w = x ++ y /\ s = x ++ t /\ P (a ++ x) t.
Proof.
  induction w as [|c w IH]; intros P a s; cbn [opts].
  - rewrite from_eps. split.
    + intro H. exists [], [], s. rewrite !app_nil_r. auto.
    + intros [x [y [t [E [-> H]]]]]. symmetry in E. apply app_eq_nil in E as [-> _]. rewrite app_nil_r in H. exact H.
  - unfold opt. rewrite from_alt, from_eps, from_seq. unfold chr. rewrite from_chr. split.
    + intros [H|H].
      * destruct s as [|d s]; [tauto|]. rewrite chr_is, IH in H. destruct H as [E [x [y [t [-> [-> H]]]]]].
        assert (d = c) by lia. subst d. exists (c :: x), y, t. rewrite <- app_assoc in H. cbn [app] in *. auto.
      * exists [], (c :: w), s. rewrite app_nil_r. auto.
    + intros [[|d x] [y [t [E [-> H]]]]].
      * right. rewrite app_nil_r in H. exact H.
      * left. injection E as <- ->. cbn [app]. rewrite chr_is, IH. split; [lia|].
        exists x, y, t. rewrite <- app_assoc. auto.
Qed.
Lemma prefixes {A} (w : list A) x y : w = x ++ y -> In x (map (fun n => firstn n w) (seq 0 (S (length w)))).
Proof.
  intros ->. apply in_map_iff. exists (length x). split.
  - rewrite firstn_app, firstn_all, Nat.sub_diag. cbn. apply app_nil_r.
  - apply in_seq. rewrite app_length. lia.
Qed.

Lemma delete_vim : exists v, vim_pattern (T "\v^d%[elete][lp]$") = Some v /\
  forall kw s, matches kw v s <-> re_delete_lp s = true \/ s = T "dl" \/ s = T "dp".
Proof.
  eexists. split; [vm_compute; reflexivity|]. intros kw s.
  match goal with |- matches _ ?r _ <-> _ =>
    change r with (Seq Bol (lits (T "d") (Seq (opts (T "elete")) (Seq (Chr false [(108, 108); (112, 112)]) (Seq Eol Eps))))) end.
  rewrite matches_bol, from_lits_app. split.
  - intros [t [-> H]]. rewrite from_seq, from_opts in H. destruct H as [x [y [u [Hw [-> H]]]]].
    rewrite lp_end in H. apply prefixes in Hw. cbn in Hw.
    destruct Hw as [<-|[<-|[<-|[<-|[<-|[<-|[]]]]]]]; destruct H as [-> | ->];
      first [right; left; reflexivity|right; right; reflexivity|left; vm_compute; reflexivity].
  - intro H.
    assert (He : exists x y e, T "elete" = x ++ y /\ s = T "d" ++ x ++ e /\ (e = T "l" \/ e = T "p")).
    { destruct H as [H|[-> | ->]].
      - unfold re_delete_lp in H. rewrite mem_text_iff in H. cbn in H.
        destruct H as [<-|[<-|[<-|[<-|[<-|[<-|[<-|[<-|[<-|[<-|[]]]]]]]]]]].
        + exists (T "elete"), (T ""), (T "l"); auto.
        + exists (T "elete"), (T ""), (T "p"); auto.
        + exists (T "elet"), (T "e"), (T "l"); auto.
        + exists (T "elet"), (T "e"), (T "p"); auto.
        + exists (T "ele"), (T "te"), (T "l"); auto.
        + exists (T "ele"), (T "te"), (T "p"); auto.
        + exists (T "el"), (T "ete"), (T "l"); auto.
        + exists (T "el"), (T "ete"), (T "p"); auto.
        + exists (T "e"), (T "lete"), (T "l"); auto.
        + exists (T "e"), (T "lete"), (T "p"); auto.
      - exists (T ""), (T "elete"), (T "l"); auto.
      - exists (T ""), (T "elete"), (T "p"); auto. }
    destruct He as [x [y [e [Hw [-> He]]]]]. exists (x ++ e). split; [reflexivity|].
    rewrite from_seq, from_opts. exists x, y, e. rewrite lp_end. auto.
Qed.

Lemma from_wend word P a s : from word WordEnd P a s <->
  word_before word a = true /\ word_behind word s = false /\ P a s.
Proof.
  split.
  - intros [m [b [-> [H HP]]]]. inversion H; subst. rewrite app_nil_r in HP. auto.
  - intros [E [E' H]]. exists [], s. rewrite app_nil_r. repeat split; auto. constructor; auto.
Qed.

(** In Vim the single character behind ++bad= has to be a word character, and the end of a word. *)
Lemma bad_vim : exists v, vim_pattern (T "^++bad=\(keep\|drop\|.\)\>") = Some v /\
  forall kw s, keywords kw -> plain s ->
    (matches kw v s <-> re_bad s = true /\ forall r t, s = T "++bad=" ++ r :: t -> go_word r = true).
Proof.
  eexists. split; [vm_compute; reflexivity|]. intros kw s Hkw Hs.
  match goal with |- matches _ ?r _ <-> _ =>
    change r with (Seq Bol (lits (T "++bad=") (Seq
    (Alt (lits (T "keep") Eps) (Alt (lits (T "drop") Eps) (Seq (Chr true []) Eps))) (Seq WordEnd Eps)))) end.
  assert (W : forall c, In c s -> kw c = go_word c) by (intros c Hc; apply (kw_plain kw Hkw s); auto).
  rewrite bad_test, !matches_bol, !from_lits_app.
  assert (L : forall w c1 w1 a t, w = w1 ++ [c1] -> go_word c1 = true -> s = a ++ w ++ t ->
     (from kw (Seq WordEnd Eps) any (a ++ w) t <-> from go_word (Seq Edge Eps) any (a ++ w) t)).
  { intros w c1 w1 a t -> Hc E.
    rewrite !from_seq, from_wend, from_edge, !from_eps.
    rewrite (before_plain kw Hkw), (behind_plain kw Hkw).
    - rewrite app_assoc, before_snoc, Hc. unfold any. destruct (word_behind go_word t); intuition congruence.
    - rewrite E, !plain_app in Hs. rewrite ?plain_app. tauto.
    - rewrite E, !plain_app in Hs. rewrite ?plain_app. tauto. }
  split.
  - intros [t [E H]]. rewrite from_seq, !from_alt, !from_lits_app in H.
    assert (G : forall w c1 w1 u, w = w1 ++ [c1] -> go_word c1 = true -> t = w ++ u ->
       from kw Eps (from kw (Seq WordEnd Eps) any) (T "++bad=" ++ w) u -> from go_word (Seq Edge Eps) any (T "++bad=" ++ w) u).
    { intros w c1 w1 u Hw Hc -> F. rewrite from_eps in F. apply (L w c1 w1 (T "++bad=") u Hw Hc E) in F. exact F. }
    destruct H as [[u [-> H]]|[[u [-> H]]|H]].
    + apply (G (T "keep") (C "p") (T "kee") u eq_refl eq_refl eq_refl) in H. split.
      * exists (T "keep" ++ u). split; auto. rewrite from_seq, !from_alt, !from_lits_app. left. exists u. rewrite from_eps. auto.
      * intros r t E'. rewrite E in E'. injection E' as <- _. reflexivity.
    + apply (G (T "drop") (C "p") (T "dro") u eq_refl eq_refl eq_refl) in H. split.
      * exists (T "drop" ++ u). split; auto. rewrite from_seq, !from_alt, !from_lits_app. right; left. exists u. rewrite from_eps. auto.
      * intros r t E'. rewrite E in E'. injection E' as <- _. reflexivity.
    + rewrite from_seq, from_chr in H. destruct t as [|r u]; [tauto|]. destruct H as [_ H]. rewrite from_eps in H.
      assert (Hr : go_word r = true).
      { rewrite from_seq, from_wend, before_snoc in H. rewrite <- W; [tauto|]. rewrite E. apply in_app_iff. cbn. auto. }
      rewrite (L [r] r [] (T "++bad=") u eq_refl Hr E) in H. split.
      * exists (r :: u). split; auto. rewrite from_seq, !from_alt. right; right. rewrite from_seq, from_chr, from_eps.
        split; auto. unfold in_class, in_range. cbn. destruct (N.eqb_spec r 10) as [->|]; [discriminate|lia].
      * intros r' t' E'. rewrite E in E'. injection E' as <- _. exact Hr.
  - intros [[t [E H]] Hr]. exists t. split; auto. rewrite from_seq, !from_alt, !from_lits_app in *.
    destruct H as [[u [-> H]]|[[u [-> H]]|H]].
    + left. exists u. split; auto. rewrite from_eps in *. apply (L (T "keep") (C "p") (T "kee") (T "++bad=") u eq_refl eq_refl E). exact H.
    + right; left. exists u. split; auto. rewrite from_eps in *. apply (L (T "drop") (C "p") (T "dro") (T "++bad=") u eq_refl eq_refl E). exact H.
    + right; right. rewrite from_seq, from_chr in *. destruct t as [|r u]; [tauto|]. destruct H as [_ H].
      split; [reflexivity|]. rewrite from_eps in *. apply (L [r] r [] (T "++bad=") u eq_refl (Hr r u E) E). exact H.
Qed.

(** * Differences *)
Lemma delete_go : exists v g, pattern_of (T "\v^d%[elete][lp]$") = Some v /\ go_pattern v = Some g /\
  forall s, matches go_word g s <-> re_delete_lp s = true.
Proof. eexists _, _. split; [vm_compute; reflexivity|]. split; [vm_compute; reflexivity|]. intro s. symmetry. apply delete_test. Qed.

Lemma bin_vim : exists v, vim_pattern (T "^++bin\>") = Some v /\
  forall kw s, matches kw v s -> exists t, s = T "++bin" ++ t /\ word_behind kw t = false.
Proof.
  eexists. split; [vm_compute; reflexivity|]. intros kw s.
  match goal with |- matches _ ?r _ -> _ => change r with (Seq Bol (lits (T "++bin") (Seq WordEnd Eps))) end.
  rewrite matches_bol, from_lits_app. intros [t [-> H]]. exists t. split; auto.
  rewrite from_seq, from_wend in H. tauto.
Qed.
Lemma continuation_vim : exists v, vim_pattern (T "^\s*\\") = Some v /\
  forall kw s, matches kw v s -> exists b t, s = b ++ 92 :: t /\ forallb iswhite b = true.
Proof.
  eexists. split; [vm_compute; reflexivity|]. intros kw s.
  match goal with |- matches _ ?r _ -> _ =>
    change r with (Seq Bol (Seq (Star (Chr false [(32, 32); (9, 9)])) (Seq (chr 92) Eps))) end.
  rewrite matches_bol, from_seq, from_star_chr. intros [b [t [-> [Hb H]]]].
  rewrite from_seq in H. unfold chr in H. rewrite from_chr in H. destruct t as [|c t]; [tauto|].
  rewrite chr_is in H. destruct H as [H _]. assert (c = 92) by lia. subst c.
  exists b, t. split; auto. rewrite forallb_forall in *. intros c Hc. specialize (Hb c Hc).
  unfold in_class, in_range, iswhite in *. cbn in *. lia.
Qed.
