(** The expression parser is total, never panics, reports errors inside the text and
    returns trees of the grammar. *)
From Coq Require Import Lia ZifyBool ZifyNat ZifyN.
From Verif Require Import Base CharClass Reader Vnode Tokenizer ExprParser Cursor Grammar Fault TokSafe.

(** * Grammar derivations consume text *)

Lemma tok_at_sfx k c p c' : tok_at k c p c' -> sfx c' c.
Proof. intros [t [H _]]. eapply token_sfx; eauto. Qed.

Lemma tok_at_clen k c p c' : tok_at k c p c' -> k <> KEof -> (clen c' < clen c)%nat.
Proof. intros [t [H [<- _]]] Hk. eapply token_clen; eauto. Qed.

Lemma tok_at_pos k c p c' : tok_at k c p c' -> exists d, sfx d c /\ p = getpos d.
Proof. intros [t [H [_ <-]]]. eapply token_pos; eauto. Qed.

Lemma token_tok_at c t c' : token_at c t c' -> tok_at (tk t) c (tp t) c'.
Proof. intros H. exists t. auto. Qed.

Lemma blank_clen c d : blank c d -> (clen d <= clen c)%nat.
Proof. intros H. apply sfx_clen. apply blank_sfx; auto. Qed.

Definition shrinks (c c' : cursor) : Prop := sfx c' c /\ (clen c' < clen c)%nat.

Lemma shrinks_l c c1 c' : sfx c1 c -> shrinks c1 c' -> shrinks c c'.
Proof.
  intros H [H1 H2]. split. eapply sfx_trans; eauto. apply sfx_clen in H; lia.
Qed.
Lemma shrinks_r c c1 c' : shrinks c c1 -> sfx c' c1 -> shrinks c c'.
Proof.
  intros [H1 H2] H. split. eapply sfx_trans; eauto. apply sfx_clen in H; lia.
Qed.
Lemma tok_shrinks k c p c' : tok_at k c p c' -> k <> KEof -> shrinks c c'.
Proof. intros H Hk. split. eapply tok_at_sfx; eauto. eapply tok_at_clen; eauto. Qed.
Lemma token_shrinks c t c' : token_at c t c' -> tk t <> KEof -> shrinks c c'.
Proof. intros H Hk. split. eapply token_sfx; eauto. eapply token_clen; eauto. Qed.
Lemma spells_shrinks s c c' : spells s c c' -> s <> [] -> shrinks c c'.
Proof.
  intros H Hs. split. eapply spells_sfx; eauto. apply spells_clen in H.
  destruct s; [congruence|cbn [length] in H; lia].
Qed.

Lemma dparams_sfx c vs c' : dparams c vs c' -> shrinks c c'.
Proof.
  induction 1.
  - eapply tok_shrinks; eauto; discriminate.
  - eapply shrinks_r. eapply token_shrinks; eauto; congruence. eapply tok_at_sfx; eauto.
  - eapply shrinks_r. eapply token_shrinks; eauto; congruence.
    eapply sfx_trans; [apply IHdparams|eapply tok_at_sfx; eauto].
  - eapply shrinks_r. eapply token_shrinks; eauto; congruence. eapply tok_at_sfx; eauto.
Qed.

Lemma string_nonempty s : string_text s -> s <> [].
Proof. intros [[b [_ ->]]|[b [_ ->]]]; destruct b; discriminate. Qed.

Ltac sfx_auto :=
  repeat match goal with
  | H : shrinks _ _ |- _ => destruct H
  | H : tok_at _ _ _ _ |- _ => apply tok_at_sfx in H
  | H : blank _ _ |- _ => apply blank_sfx in H
  | H : spells _ _ _ |- _ => apply spells_sfx in H
  | H : token_at _ _ _ |- _ => apply token_sfx in H
  | H : dparams _ _ _ |- _ => apply dparams_sfx in H
  end;
  solve [eauto 10 using sfx_trans, sfx_refl].

Lemma derivation_shrinks :
  (forall l c v c', dexpr l c v c' -> shrinks c c') /\
  (forall c v c', dopt c v c' -> sfx c' c) /\
  (forall k c vs c', dlist k c vs c' -> sfx c' c) /\
  (forall l c kvs c', dentries l c kvs c' -> sfx c' c) /\
  (forall l c v c', dkey l c v c' -> shrinks c c') /\
  (forall c ps c', dname c ps c' -> sfx c' c /\ (ps <> [] -> shrinks c c')) /\
  (forall c ps c', dparts c ps c' -> sfx c' c /\ (ps <> [] -> shrinks c c')).
Proof.
  apply dexpr_mutind; intros; auto.
  - eapply shrinks_r; eauto. sfx_auto.
  - eapply shrinks_r; eauto. sfx_auto.
  - eapply shrinks_r; eauto. sfx_auto.
  - eapply shrinks_l; eauto. sfx_auto.
  - eapply shrinks_r; eauto. sfx_auto.
  - eapply shrinks_r; eauto. sfx_auto.
  - eapply shrinks_r; eauto. sfx_auto.
  - eapply shrinks_r; eauto. sfx_auto.
  - eapply shrinks_r; eauto. sfx_auto.
  - eapply token_shrinks; eauto. intros E.
    match goal with H : simple_lit _ = _ |- _ => rewrite E in H; discriminate H end.
  - eapply shrinks_l. eapply blank_sfx; eauto. eapply spells_shrinks; eauto. apply string_nonempty; auto.
  - eapply shrinks_r. eapply tok_shrinks; eauto; discriminate. sfx_auto.
  - eapply shrinks_r. eapply tok_shrinks; eauto; destruct lit; discriminate. sfx_auto.
  - eapply shrinks_r. eapply tok_shrinks; eauto; destruct lit; discriminate. sfx_auto.
  - eapply shrinks_r. eapply tok_shrinks; eauto; discriminate. sfx_auto.
  - eapply shrinks_l. eapply blank_sfx; eauto. apply H. discriminate.
  - eapply shrinks_l. eapply blank_sfx; eauto. apply H. auto.
  - constructor.
  - apply H.
  - sfx_auto.
  - sfx_auto.
  - sfx_auto.
  - sfx_auto.
  - sfx_auto.
  - sfx_auto.
  - eapply shrinks_l. eapply blank_sfx; eauto. eapply spells_shrinks; eauto. discriminate.
  - destruct H. split. sfx_auto. intros _. eapply shrinks_r; [|exact H].
    eapply spells_shrinks; eauto. intros ->. discriminate i.
  - split. constructor. congruence.
  - destruct H. split. sfx_auto. intros _. eapply shrinks_r; [|exact H].
    match goal with X : some_of _ _ |- _ => destruct X end. eapply spells_shrinks; eauto.
  - destruct H0. split. sfx_auto. intros _. eapply shrinks_r; [|exact H0].
    eapply shrinks_r; [|eapply tok_at_sfx; eauto].
    eapply shrinks_l; [|exact H]. sfx_auto.
Qed.

Lemma dexpr_shrinks l c v c' : dexpr l c v c' -> shrinks c c'.
Proof. apply derivation_shrinks. Qed.
Lemma dlist_sfx k c vs c' : dlist k c vs c' -> sfx c' c.
Proof. apply derivation_shrinks. Qed.
Lemma dopt_sfx c vs c' : dopt c vs c' -> sfx c' c.
Proof. apply derivation_shrinks. Qed.
Lemma dentries_sfx k c vs c' : dentries k c vs c' -> sfx c' c.
Proof. apply derivation_shrinks. Qed.

Lemma dkey_shrinks l c v c' : dkey l c v c' -> shrinks c c'.
Proof. apply derivation_shrinks. Qed.

Lemma dlval_shrinks c v c' : dlval c v c' -> shrinks c c'.
Proof.
  induction 1.
  - eapply token_shrinks; eauto. intros E.
    match goal with H : simple_lit _ = _ |- _ => rewrite E in H; discriminate H end.
  - eapply shrinks_l. eapply blank_sfx; eauto. apply derivation_shrinks in H0. apply H0. discriminate.
  - eapply shrinks_l. eapply blank_sfx; eauto. apply derivation_shrinks in H0. apply H0. auto.
  - apply dexpr_shrinks in H2. eapply shrinks_r; eauto. sfx_auto.
  - apply dopt_sfx in H2, H4. eapply shrinks_r; eauto. sfx_auto.
  - eapply shrinks_r; eauto. sfx_auto.
Qed.

(** * The parser *)

Definition is_expr_at (l : nat) (c : cursor) : vnode * cursor -> Prop :=
  fun '(v, c') => dexpr l c v c'.

(** ** Tokens in reports *)

Lemma dec_digits n : some_of isdigit (dec n).
Proof.
  assert (Hf : forall f m acc, forallb isdigit acc = true -> forallb isdigit (dec_loop f m acc) = true).
  { induction f as [|f IH]; intros m acc H; cbn [dec_loop]; auto.
    assert (H1 : forallb isdigit ((C "0" + m mod 10) :: acc) = true).
    { cbn [forallb]. rewrite H, andb_true_r. pose proof (N.mod_lt m 10 ltac:(lia)).
      unfold isdigit, between. change (C "0") with 48. change (C "9") with 57. lia. }
    destruct (m / 10 =? 0); auto. }
  split; [|apply Hf; reflexivity]. unfold dec. intros E.
  assert (Hl : forall f m acc, acc <> [] -> dec_loop f m acc <> []).
  { induction f as [|f IH]; intros m acc H; cbn [dec_loop]; auto.
    destruct (m / 10 =? 0); [discriminate|]. apply IH. discriminate. }
  cbn [dec_loop] in E. destruct (n / 10 =? 0); [discriminate|]. apply Hl in E; auto. discriminate.
Qed.

Lemma blank_here c d : blank c d -> blank d d.
Proof. intros [ws [_ [_ H]]]. exists []. repeat split; auto. Qed.

Lemma stands_of c t c' : token_at c t c' -> exists d, blank c d /\ tp t = getpos d /\ stands d t.
Proof.
  intros [d [Hb [Hp H]]]. exists d. split; [auto|]. split; [auto|]. exists c'. split; auto.
  exists d. split; auto. eapply blank_here; eauto.
Qed.

(** "<SID>" is read as a "<". *)
Lemma sid_text w : is_sid w -> exists a b c d e, w = [a; b; c; d; e] /\ a = C "<" /\
  (b = C "s" \/ b = C "S") /\ equalci [b; c; d; e] (T "SID>") = true.
Proof.
  unfold is_sid, equalci. change (map to_lower (T "<SID>")) with (T "<sid>"). intros H.
  apply text_eqb_eq in H. destruct w as [|a [|b [|c [|d [|e [|f w]]]]]]; try discriminate.
  cbn [map] in H. injection H as Ha Hb Hc Hd He. exists a, b, c, d, e. split; [auto|].
  assert (Hlow : forall x y, to_lower x = y -> y < 123 -> y <> C "i" -> y <> C "k" ->
             x = y \/ x + 32 = y /\ 65 <= x <= 90).
  { intros x y. unfold to_lower, isupper, between. change (C "A") with 65. change (C "Z") with 90.
    destruct ((65 <=? x) && (x <=? 90)) eqn:E; [intros <-; right; lia|].
    destruct (x =? 304); [congruence|]. destruct (x =? 8490); [congruence|]. auto. }
  split; [destruct (Hlow _ _ Ha) as [X|[X Y]]; try discriminate; auto; [lia|lia]|].
  split; [destruct (Hlow _ _ Hb) as [X|[X Y]]; try discriminate; auto; [lia|right; change (C "S") with 83; lia]|].
  apply text_eqb_eq. cbn [map]. rewrite Hb, Hc, Hd, He. reflexivity.
Qed.

Lemma sid_token c t c' d w x : token_at c t c' -> blank c d -> is_sid w -> spells w d x ->
  tk t = KCmp OLt MNone /\ equalci (peekn 4 c') (T "SID>") = true.
Proof.
  intros [d' [Hb' [_ H]]] Hb Hw Sp. assert (d' = d) by (rewrite (blank_fun _ _ Hb'); symmetry; apply blank_fun; auto).
  subst d'. destruct (sid_text _ Hw) as [a [b [c1 [d1 [e [-> [-> [Hbs He]]]]]]]].
  cbn [spells] in Sp.
  destruct d as [|[|r1] p1 [|[|r2] p2 [|[|r3] p3 [|[|r4] p4 [|[|r5] p5 u]]]]]; try tauto.
  destruct Sp as [-> [-> [-> [-> [-> ->]]]]].
  assert (Hl : spells (tv t) (Cons (R (C "<")) p1 (Cons (R b) p2 (Cons (R c1) p3 (Cons (R d1) p4 (Cons (R e) p5 x))))) c' /\
               lexeme (tk t) (tv t) \/ False).
  { destruct (tk t); auto. destruct H as [H _]; discriminate. destruct H as [[q H] _]; discriminate. }
  destruct Hl as [[Sp Hl]|[]].
  assert (Hne : tv t <> []) by (eapply lexeme_nonempty; eauto).
  destruct (tv t) as [|y tv'] eqn:Ev; [congruence|]. cbn [spells] in Sp. destruct Sp as [Hy Sp].
  assert (Hcmp : exists o m, tk t = KCmp o m).
  { subst y. unfold lexeme in Hl. destruct (tk t); cbn [spelling] in Hl; eauto; try discriminate Hl; try contradiction; exfalso.
    1: inversion Hl as [s [_ Hd]|s s' [Hn Hd] _ E|s s' z sg x' [Hn Hd] _ _ _ _ E| |]; subst; try discriminate.
    1, 2: destruct s as [|y s]; [congruence|]; injection E as -> E; discriminate.
    all: first [destruct Hl as [z [b' [_ [_ [_ [=]]]]]] | destruct Hl as [z [b' [[= <- <-] [Hn _]]]]; discriminate Hn
               | destruct Hl as [z [b' [_ [_ [=]]]]] | destruct Hl as [z [_ [=]]]]. }
  destruct Hcmp as [o [m Ek]]. rewrite Ek in *. unfold lexeme in Hl. cbn [spelling] in Hl.
  assert (Hc : o = OLt /\ m = MNone /\ tv' = []).
  { subst y. destruct o; cbn [cmp_symbol app] in Hl; try discriminate Hl; destruct m; cbn in Hl; injection Hl as Hl;
      subst tv'; auto; exfalso; cbn [spells] in Sp; destruct Sp as [Sp _]; rewrite Sp in Hbs; destruct Hbs; discriminate. }
  destruct Hc as [-> [-> ->]]. split; auto. cbn [spells] in Sp. subst c'. exact He.
Qed.

Section Safe.
Context (B : cursor) (D : bool -> cursor -> Prop) (HB : wf B) (n : nat) (e1 : cursor -> outcome (vnode * cursor))
  (He1 : forall c, sfx c B -> operand_due B D c -> (clen c < n)%nat -> esafe B D (is_expr_at 1 c) (e1 c)).

Lemma unexpected_esafe {A} (P : A -> Prop) c t c' ks :
  token_at c t c' -> sfx c B -> (forall d, blank c d -> wanted B D d ks) -> ~ In (tk t) ks ->
  esafe B D P (unexpected_token t).
Proof.
  intros Ht Hs Hw Hk. destruct (stands_of _ _ _ Ht) as [d [Hb [Hp Hd]]].
  unfold unexpected_token. rewrite Hp. apply esafe_raise. eapply sfx_trans; eauto. apply blank_sfx; auto.
  eapply ef_token; eauto.
Qed.

Lemma raise_tok_esafe {A} (P : A -> Prop) msg c t c' :
  token_at c t c' -> sfx c B -> (forall d, blank c d -> stands d t -> expr_fault B D d msg) ->
  esafe B D P (raise msg (tp t)).
Proof.
  intros Ht Hs Hw. destruct (stands_of _ _ _ Ht) as [d [Hb [Hp Hd]]].
  rewrite Hp. apply esafe_raise; auto. eapply sfx_trans; eauto. apply blank_sfx; auto.
Qed.

(** An operand is due behind the token just read. *)
Ltac due := first [assumption | solve [auto] |
  solve [right; left; do 2 eexists; split; [|split; [eassumption|]]; [assumption |
    first [match goal with H : tk ?t = _ |- context [tk ?t] => rewrite H end |
           match goal with H : tok_eqb (tk ?t) _ = true |- context [tk ?t] => apply tok_eqb_eq in H; rewrite H end]; cbn; auto]] |
  match goal with H : tok_at _ ?c0 _ ?c |- operand_due _ _ ?c =>
    destruct H as [? [? [? ?]]]; solve [right; left; do 2 eexists; split; [|split; [eassumption|]]; [assumption |
      match goal with H : tk ?t = _ |- context [tk ?t] => rewrite H; exact I end]] end].

Ltac fw :=
  repeat match goal with
  | H : token_at ?c ?t ?c' |- _ =>
    match goal with
    | _ : sfx c' c |- _ => fail 1
    | _ => pose proof (token_sfx _ _ _ H)
    end
  | H : dexpr _ ?c _ ?c' |- _ =>
    match goal with
    | _ : shrinks c c' |- _ => fail 1
    | _ => pose proof (dexpr_shrinks _ _ _ _ H)
    end
  | H : sfx ?a ?b, H2 : sfx ?b B |- _ =>
    match goal with
    | _ : sfx a B |- _ => fail 1
    | _ => pose proof (sfx_trans _ _ _ H H2)
    end
  | H : shrinks ?a ?b |- _ =>
    match goal with
    | _ : sfx b a, _ : (clen b < clen a)%nat |- _ => fail 1
    | _ => pose proof (proj1 H); pose proof (proj2 H)
    end
  | H : sfx ?a ?b |- _ =>
    match goal with
    | _ : (clen a <= clen b)%nat |- _ => fail 1
    | _ => pose proof (sfx_clen _ _ H)
    end
  end.

Ltac tgetstep t c Ht :=
  esafe_b; [apply tget_esafe; assumption | intros [t c] Ht; fw].
Ltac tpeekstep t Ht :=
  esafe_b; [apply tpeek_esafe; assumption | intros t Ht].
Ltac e1step v c H :=
  esafe_b; [apply He1; [assumption | due | lia] | intros [v c] H; unfold is_expr_at in H; fw].
Ltac notin := first [assumption |
  match goal with H : tk ?t = _ |- ~ In (tk ?t) _ => rewrite H end; unfold operand_tokens, target_tokens; cbn [In]; intuition discriminate |
  cbn [In]; intuition congruence].
(** The token of the goal is not one of [ks], which are due after the expression before it. *)
Ltac after ks := solve [eapply (unexpected_esafe _ _ _ _ ks);
  [eassumption | assumption |
   intros; eapply wa_after; [ | eassumption | eassumption | unfold followers; cbn [In]; auto 10]; assumption | notin]].
(** Record that the token of [H] is of kind [E] and use its length. *)
Ltac tokfact H E :=
  let H2 := fresh "Hlt" in
  pose proof (token_clen _ _ _ H) as H2; rewrite E in H2; specialize (H2 ltac:(discriminate)).

Ltac after_eqb ks := solve [eapply (unexpected_esafe _ _ _ _ ks);
  [eassumption | assumption |
   intros; eapply wa_after; [ | eassumption | eassumption | unfold followers; cbn [In]; auto 10]; assumption |
   cbn [In]; intuition; match goal with H : _ = tk _ |- _ => rewrite <- H in *; discriminate end]].

(** ** Names *)

Lemma curly_loop_esafe : forall m c, sfx c B -> (clen c < m)%nat -> (clen c <= n)%nat ->
  esafe B D (fun '(ps, c') => dparts c ps c' /\
            (ch_in isnamec (peek c) || ch_is (peek c) (C "{") = true -> ps <> [])) (curly_loop e1 m c).
Proof.
  induction m as [|m IH]; intros c Hs Hm Hn; [lia|]. cbn [curly_loop].
  destruct (ch_in isnamec (peek c)) eqn:E1; [|destruct (ch_is (peek c) (C "{")) eqn:E2].
  - destruct (read_name c) as [s c1] eqn:E2.
    pose proof (read_some _ _ _ _ E2 E1) as Hsome.
    apply read_while_spells in E2. destruct E2 as [Sp _].
    assert (Hsh : shrinks c c1) by (eapply spells_shrinks; eauto; apply Hsome). fw.
    esafe_b. apply (IH c1); auto; lia.
    intros [ps c2] [Hps _]. cbn [esafe]. split; [|discriminate].
    eapply dq_word; eauto.
  - apply ch_is_peek in E2. destruct E2 as [p [t ->]]. cbn [get snd].
    assert (Ht : sfx t B) by (eapply sfx_tail; eauto). cbn [clen] in Hm, Hn.
    assert (Hdu : operand_due B D t) by (right; right; eauto).
    e1step v c2 Hv.
    pose proof (blank_skip c2) as Hbl. pose proof (blank_sfx _ _ Hbl). fw.
    rewrite p_0. cbn [bind].
    destruct (ch_is (peek (skip_white c2)) (C "}")) eqn:E3; cbn [negb];
      [|apply esafe_raise; [auto|]; replace (ch_text (peek (skip_white c2))) with (shown (skip_white c2))
         by (destruct (skip_white c2) as [|[|]]; reflexivity);
        eapply ef_brace; [ |exact Hv|exact Hbl|]; [exact Ht|];
        intros E4; destruct (skip_white c2) as [|[|r'] q u]; try discriminate; injection E4 as ->; discriminate].
    destruct (skip_white c2) as [|x q u] eqn:Ec3; [discriminate|].
    cbn [seek_cur bind]. assert (Hu : sfx u B) by (eapply sfx_tail; eassumption). cbn [clen] in *.
    esafe_b. apply (IH u); auto; lia.
    intros [ps c5] [Hps _]. cbn [esafe]. split; [|discriminate].
    apply ch_is_peek in E3. destruct E3 as [q' [u' E3]]. inversion E3; subst x q u.
    eapply dq_brace; [cbn [spells]; eauto | exact Hv | | exact Hps].
    exists (mkTok KCClose (T "}") q'). cbn [tk tp]. split; auto.
    exists (Cons (R (C "}")) q' u'). cbn [tk tv tp]. split; auto. split; auto.
    cbn [spells]. split; auto. reflexivity.
  - cbn [esafe]. split; [constructor|discriminate].
Qed.

Lemma curly_parts_esafe c : sfx c B -> (clen c <= n)%nat ->
  esafe B D (fun '(ps, c') => dname c ps c' /\
           (ch_in isnamec (peek c) || ch_is (peek c) (C "{") = true \/
            equalci (peekn 5 c) (T "<SID>") = true /\ ch_is (peek c) (C "<") = true -> ps <> []))
    (parse_curly_parts e1 c).
Proof.
  intros Hs Hn. unfold parse_curly_parts.
  destruct (ch_is (peek c) (C "<") && equalci (peekn 5 c) (T "<SID>")) eqn:E.
  - apply andb_true_iff in E. destruct E as [_ E]. unfold peekn in E.
    destruct (getn 5 c) as [s c1] eqn:E1. cbn [fst] in E.
    apply getn_spells in E1. pose proof (spells_sfx _ _ _ E1). fw.
    esafe_b. apply (curly_loop_esafe (S (clen c1)) c1); auto; lia.
    intros [ps c2] [Hps _]. cbn [esafe]. split; [|discriminate].
    eapply dn_sid; eauto.
  - eapply esafe_imp; [|apply curly_loop_esafe; auto; lia].
    intros [ps c'] [Hps Hne]. split. apply dn_plain; auto.
    intros [H|[H1 H2]]; auto. rewrite H1, H2 in E. discriminate.
Qed.

(** The places where an identifier is expected. *)
Definition name_start (c : cursor) : Prop :=
  let d := skip_white c in
  ch_in isnamec1 (peek d) || ch_is (peek d) (C "{") = true \/ peekn 2 d = T "#{" \/
  equalci (peekn 5 d) (T "<SID>") = true /\ ch_is (peek d) (C "<") = true.

Lemma peek_hash d : peekn 2 d = T "#{" -> exists p q t, d = Cons (R (C "#")) p (Cons (R (C "{")) q t).
Proof.
  unfold peekn. destruct d as [|[|r] p [|[|r2] q t]]; cbn; try discriminate. intros [= -> ->]. eauto.
Qed.

(** "#{" starts a name of at least two parts. *)
Lemma curly_hash d ps c1 : peekn 2 d = T "#{" -> parse_curly_parts e1 d = Ok (ps, c1) ->
  forall q s, ps <> [VCurlyPart q s].
Proof.
  intros H. apply peek_hash in H. destruct H as [p [q [t ->]]]. unfold parse_curly_parts.
  cbn [peek ch_of_cell ch_is andb N.eqb]. cbn [clen]. cbn [curly_loop peek ch_of_cell ch_in].
  cbn -[curly_loop clen]. cbn [curly_loop peek ch_of_cell ch_in ch_is].
  cbn -[curly_loop clen seek_cur p_]. intros H q' s ->. destruct (e1 t) as [[v c2]| | |]; try discriminate.
  cbn [bind] in H. destruct (p_ 0 (skip_white c2)) as [x| | |]; try discriminate. cbn [bind] in H.
  destruct (negb (ch_is x 125)); [discriminate|].
  destruct (skip_white c2) as [|y q2 c4]; try discriminate. cbn [bind] in H.
  match type of H with bind (bind ?m _) _ = _ => destruct m as [[ps c5]| | |] end; discriminate.
Qed.

(** A name of one part is a plain name. *)
Lemma one_part_name d s q c1 : dname d [VCurlyPart q s] c1 ->
  ch_in isnamec1 (peek d) || ch_is (peek d) (C "{") = true \/
    equalci (peekn 5 d) (T "<SID>") = true /\ ch_is (peek d) (C "<") = true ->
  name_text s.
Proof.
  inversion 1 as [? ? ? Hp|? ? ? ? ? Sp Hsid Hp]; subst; [|right; auto].
  inversion Hp as [|? ? ? ? ? Sp [Hne Hw] Hps|]; subst. intros Hd. left.
  destruct s as [|r w]; [congruence|]. exists r, w. cbn [forallb] in Hw. apply andb_true_iff in Hw.
  destruct Hw as [Hr Hw]. split; auto. split; auto. cbn [spells] in Sp.
  destruct d as [|[|r'] p t]; try contradiction. destruct Sp as [-> _]. cbn [peek ch_of_cell ch_in ch_is] in Hd.
  destruct Hd as [Hd|[_ Hd]].
  - apply orb_true_iff in Hd. destruct Hd as [Hd|Hd]; auto. apply N.eqb_eq in Hd. subst r. discriminate.
  - apply N.eqb_eq in Hd. subst r. discriminate.
Qed.

Lemma identifier_esafe_gen c : sfx c B -> (clen c <= n)%nat -> name_start c ->
  esafe B D (fun '(v, c') => dexpr 9 c v c' /\ dlval c v c') (parse_identifier e1 c).
Proof.
  intros Hs Hn Hstart. unfold parse_identifier, name_start in *.
  pose proof (blank_skip c) as Hb. pose proof (blank_sfx _ _ Hb). fw.
  pose proof (curly_parts_esafe (skip_white c) ltac:(auto) ltac:(lia)) as Hc.
  destruct (parse_curly_parts e1 (skip_white c)) as [[ps c1]| | |] eqn:Ec; auto. cbn [esafe bind] in *.
  destruct Hc as [Hd Hne].
  assert (Hne' : ps <> []).
  { apply Hne. destruct Hstart as [HS|[HS|HS]]; auto.
    - left. apply orb_true_iff in HS. destruct HS as [HS|HS]; [|rewrite HS; apply orb_true_r].
      apply ch_in_peek in HS. destruct HS as [r [p0 [t0 [-> HS]]]]. cbn [peek ch_of_cell ch_in].
      rewrite isnamec1_c; auto.
    - left. apply peek_hash in HS. destruct HS as [p0 [q0 [t0 ->]]]. reflexivity. }
  destruct ps as [|v ps]; [congruence|].
  destruct v; destruct ps;
    try (cbn [esafe]; split; [apply d_curly | apply lv_curly]; auto; discriminate).
  match goal with |- context [VIdent _ ?s] => assert (Hn0 : name_text s) end.
  { destruct Hstart as [HS|[HS|HS]].
    - eapply one_part_name; eauto.
    - exfalso. eapply curly_hash; eauto.
    - eapply one_part_name; eauto. }
  cbn [esafe]. split; [eapply d_name | eapply lv_name]; eauto.
Qed.

Lemma identifier_esafe c : sfx c B -> (clen c <= n)%nat -> name_start c ->
  esafe B D (is_expr_at 9 c) (parse_identifier e1 c).
Proof.
  intros. eapply esafe_imp; [|apply identifier_esafe_gen; auto]. intros [v c'] [H2 _]; exact H2.
Qed.

(** A token at [c] whose text starts like a name. *)
Lemma start_of_token c t c' : token_at c t c' ->
  match tk t with
  | KIdent | KCOpen | KCmp OIs _ | KCmp OIsNot _ | KLitCOpen => True
  | _ => False
  end -> name_start c.
Proof.
  intros [d [Hb [_ H]]] Hk. unfold name_start. rewrite <- (blank_fun _ _ Hb).
  destruct (tk t) eqn:Ek; try contradiction.
  - left. destruct H as [Sp Hl]. cbn in Hl. destruct o; try contradiction; rewrite Hl in Sp;
      destruct m; cbn in Sp; destruct d as [|[|r] p u]; try contradiction;
      destruct Sp as [-> _]; reflexivity.
  - left. destruct H as [Sp Hl]. cbn in Hl. rewrite Hl in Sp.
    cbn in Sp; destruct d as [|[|r] p u]; try contradiction; destruct Sp as [-> _]; reflexivity.
  - left. destruct H as [Sp [r [w [Hv [Hr _]]]]]. rewrite Hv in Sp. cbn [spells] in Sp.
    destruct d as [|[|r'] p u]; try contradiction. destruct Sp as [-> _].
    cbn [peek ch_of_cell ch_in]. rewrite Hr; auto.
  - right. left. destruct H as [Sp Hl]. cbn in Hl. rewrite Hl in Sp.
    cbn [spells] in Sp. destruct d as [|[|r] p [|[|r2] p2 u]]; try contradiction; [| |].
    all: destruct Sp as [-> Sp]; try contradiction. destruct Sp as [-> _]. reflexivity.
Qed.

Lemma start_of_sid c t c' : token_at c t c' -> tk t = KCmp OLt MNone ->
  equalci (peekn 4 c') (T "SID>") = true -> name_start c.
Proof.
  intros [d [Hb [_ H]]] Hk He. unfold name_start. rewrite <- (blank_fun _ _ Hb).
  right. right. rewrite Hk in H. destruct H as [Sp Hl]. cbn in Hl. rewrite Hl in Sp. cbn [spells] in Sp.
  destruct d as [|[|r] p u]; try contradiction. destruct Sp as [-> ->].
  split; auto. unfold peekn in *.
  change (getn 5 (Cons (R 60) p c')) with (let '(s, c1) := getn 4 c' in (60 :: s, c1)).
  destruct (getn 4 c') as [s c1]. cbn [fst] in *.
  unfold equalci in *. cbn [map]. change (to_lower 60) with 60. cbn [text_eqb].
  rewrite N.eqb_refl. cbn [andb map] in *. exact He.
Qed.

(** ** Lists *)

Lemma rlist_loop_esafe : forall m c, sfx c B -> operand_due B D c -> (clen c < m)%nat -> (clen c < n)%nat ->
  esafe B D (fun '(vs, t, c') => dlist KPClose c vs c' /\ exists d, sfx d c /\ sfx c' d /\ stands d t /\
           In (tk t) [KComma; KPClose] /\ tp t = getpos d)
    (rlist_loop e1 m c).
Proof.
  induction m as [|m IH]; intros c Hs Hdu Hm Hn; [lia|]. cbn [rlist_loop].
  e1step v c1 Hv. tgetstep t c2 Ht.
  assert (Hpos : exists d, sfx d c /\ sfx c2 d /\ stands d t /\ tp t = getpos d).
  { destruct (stands_of _ _ _ Ht) as [d [Hb [Hp Hd]]]. exists d. split; [|split; [|auto]].
    - eapply sfx_trans; [apply blank_sfx; eauto|]. assumption.
    - destruct Ht as [d' [Hb' [_ Ht]]].
      assert (d' = d) by (rewrite (blank_fun _ _ Hb'); symmetry; apply blank_fun; auto). subst d'.
      destruct Hd as [c' [Hd _]]. destruct (tk t); try (destruct Ht; eapply spells_sfx; eauto; fail).
      destruct Ht as [_ [-> _]]; constructor. destruct Ht as [[p ->] _]; constructor; constructor. }
  destruct Hpos as [d [Hd1 [Hd2 [Hd3 Hd4]]]].
  destruct (tk t) eqn:Ek; try after [KComma; KPClose].
  - cbn [esafe]. split; [|exists d; rewrite Ek; cbn [In]; auto 10]. eapply dl_last; eauto. rewrite <- Ek. apply token_tok_at; auto.
  - assert (Htk : tok_at KComma c1 (tp t) c2) by (rewrite <- Ek; apply token_tok_at; auto).
    tgetstep t2 c3 Ht2. destruct (tok_eqb (tk t2) KPClose) eqn:E2.
    + cbn [esafe]. split; [|exists d; rewrite Ek; cbn [In]; repeat split; eauto using sfx_trans].
      apply tok_eqb_eq in E2.
      eapply dl_cons; eauto. eapply dl_nil. rewrite <- E2. apply token_tok_at; eauto.
    + esafe_b. apply (IH c2); auto; [due|lia..]. intros [[vs t'] c4] [Hl [d' [Hp1 [Hp2 [Hp3 Hp4]]]]]. cbn [esafe]. split.
      * eapply dl_cons; eauto.
      * exists d'. repeat split; try tauto. eapply sfx_trans; [exact Hp1|]. eauto using sfx_trans.
Qed.

Lemma rlist_esafe c : sfx c B -> operand_due B D c -> (clen c < n)%nat ->
  esafe B D (fun '(vs, c') => dlist KPClose c vs c' /\ (length vs <= 20)%nat) (parse_rlist e1 c).
Proof.
  intros Hs Hdu Hn. unfold parse_rlist. tgetstep t c1 Ht.
  destruct (tok_eqb (tk t) KPClose) eqn:E.
  - apply tok_eqb_eq in E. cbn [esafe length]. split; [|lia].
    eapply dl_nil. rewrite <- E. apply token_tok_at; auto.
  - esafe_b. apply (rlist_loop_esafe (S (clen c)) c); auto.
    intros [[vs t'] c2] [Hl [d [Hd1 [Hd2 [Hd3 [Hd4 Hp]]]]]].
    destruct (Nat.ltb MAX_FUNC_ARGS (length vs)) eqn:E2.
    + rewrite Hp. apply esafe_raise; [eauto using sfx_trans|]. apply (ef_args B D d c vs c2 t'); auto. apply Nat.ltb_lt in E2. exact E2.
    + cbn [esafe]. split; auto. unfold MAX_FUNC_ARGS in E2. lia.
Qed.

Lemma list_loop_esafe : forall m c, sfx c B -> operand_due B D c -> (clen c < m)%nat -> (clen c < n)%nat ->
  esafe B D (fun '(vs, c') => dlist KSqClose c vs c') (list_loop e1 m c).
Proof.
  induction m as [|m IH]; intros c Hs Hdu Hm Hn; [lia|]. cbn [list_loop].
  e1step v c1 Hv. tgetstep t c2 Ht.
  destruct (tk t) eqn:Ek; try after [KComma; KSqClose].
  - cbn [esafe]. eapply dl_last; eauto. rewrite <- Ek. apply token_tok_at; auto.
  - assert (Htk : tok_at KComma c1 (tp t) c2) by (rewrite <- Ek; apply token_tok_at; auto).
    tgetstep t2 c3 Ht2. destruct (tok_eqb (tk t2) KSqClose) eqn:E2.
    + cbn [esafe]. apply tok_eqb_eq in E2.
      eapply dl_cons; eauto. eapply dl_nil. rewrite <- E2. apply token_tok_at; eauto.
    + esafe_b. apply (IH c2); auto; [due|lia..]. intros [vs c4] Hl. cbn [esafe].
      eapply dl_cons; eauto.
Qed.

Lemma list_esafe p c : sfx c B -> operand_due B D c -> (clen c < n)%nat ->
  esafe B D (fun '(v, c') => exists vs, v = VList p vs /\ dlist KSqClose c vs c') (parse_list e1 p c).
Proof.
  intros Hs Hdu Hn. unfold parse_list. tgetstep t c1 Ht.
  destruct (tok_eqb (tk t) KSqClose) eqn:E.
  - apply tok_eqb_eq in E. cbn [esafe]. eexists; split; eauto.
    eapply dl_nil. rewrite <- E. apply token_tok_at; auto.
  - esafe_b. apply (list_loop_esafe (S (clen c)) c); auto.
    intros [vs c2] Hl. cbn [esafe]. eauto.
Qed.

(** ** Lambdas and dictionaries *)

Lemma dparams_arrow c vs c' : dparams c vs c' -> exists c0 t, sfx c0 c /\ token_at c0 t c' /\ tk t = KArrow.
Proof.
  induction 1;
    repeat match goal with
    | H : tok_at KArrow _ _ _ |- _ => destruct H as [? [? [? ?]]]
    | H : exists _ _, _ |- _ => destruct H as [? [? [? [? ?]]]]
    | H : tok_at _ ?a _ ?b |- _ => apply tok_at_sfx in H
    | H : token_at ?a ?t ?b, K : tk ?t = KIdent |- _ => apply token_sfx in H
    | H : token_at ?a ?t ?b, K : tk ?t = KDotDotDot |- _ => apply token_sfx in H
    end; try (do 2 eexists; split; [|split; eassumption]; eauto using sfx_trans, sfx_refl; fail).
Qed.

Lemma lambda_loop_esafe c00 : sfx c00 B -> forall m b named c0 t c, params_to c00 b named c0 -> token_at c0 t c -> sfx c0 B ->
  (clen c < m)%nat ->
  esafe B D (fun r => match r with
                   | None => True
                   | Some (vs, c') => dparams c0 vs c' /\
                      exists ps rest, vs = ps ++ rest /\ Forall is_param ps /\
                        NoDup (map name_of ps) /\
                        (forall x, In x (map name_of ps) -> ~ In x named) /\
                        (rest = [] \/ exists v, rest = [v] /\ is_rest v)
                   end)
    (lambda_loop m named t c).
Proof.
  intros H00. induction m as [|m IH]; intros b named c0 t c Hpt Ht Hs Hm; [lia|]. cbn [lambda_loop]. fw.
  destruct (tk t) eqn:Ek; try exact I.
  - destruct (isargname (tv t)) eqn:Ea; cbn [negb];
      [|eapply raise_tok_esafe; [eassumption|assumption|]; intros d Hbd Hst; apply ef_argname; auto].
    destruct (mem_text (tv t) named) eqn:Em;
      [eapply raise_tok_esafe; [eassumption|assumption|]; intros d Hbd Hst; apply (ef_twice B D d t c00 b named c0); auto; apply mem_text_In; auto|].
    rewrite p_0. cbn [bind].
    assert (Hnot : ~ In (tv t) named).
    { intros Hin. apply mem_text_In in Hin. congruence. }
    assert (Hrest : esafe B D (fun r => match r with
                   | None => True
                   | Some (vs, c') => dparams c0 vs c' /\
                      exists ps rest, vs = ps ++ rest /\ Forall is_param ps /\
                        NoDup (map name_of ps) /\
                        (forall x, In x (map name_of ps) -> ~ In x named) /\
                        (rest = [] \/ exists v, rest = [v] /\ is_rest v)
                   end)
       (let var := VIdent (tp t) (tv t) in
          let* '(t1, c1) := tget c in
          match tk t1 with
          | KComma =>
            let* '(t2, c2) := tget c1 in
            if tok_eqb (tk t2) KArrow then Ok (Some ([var], c2))
            else
              let* r := lambda_loop m (tv t :: named) t2 c2 in
              Ok (match r with Some (vs, c3) => Some (var :: vs, c3) | None => None end)
          | KArrow => Ok (Some ([var], c1))
          | _ => raise (T "unexpected token: " ++ tv t1 ++ T ", type: " ++ dec (tok_num (tk t1))) (tp t1)
          end)).
    { cbv zeta. tgetstep t1 c1 Ht1.
      assert (Hone : exists ps rest, [VIdent (tp t) (tv t)] = ps ++ rest /\ Forall is_param ps /\
                        NoDup (map name_of ps) /\
                        (forall x, In x (map name_of ps) -> ~ In x named) /\
                        (rest = [] \/ exists v, rest = [v] /\ is_rest v)).
      { exists [VIdent (tp t) (tv t)], []. cbn. split; [auto|split; [|split; [|split; [|auto]]]].
        - constructor; [exact Ea|constructor].
        - repeat constructor. intros [].
        - intros x [<-|[]]; auto. }
      destruct (tk t1) eqn:Ek1; try (eapply raise_tok_esafe; [eassumption|assumption|]; intros;
        eapply ef_lambda; [eassumption| |exact Ht|exact Ek|eassumption|notin|apply dec_digits]; assumption).
      - (* comma *)
        tokfact Ht1 Ek1. tgetstep t2 c2 Ht2. destruct (tok_eqb (tk t2) KArrow) eqn:E2.
        + apply tok_eqb_eq in E2. cbn [esafe]. split; auto.
          eapply dp_cons; eauto. rewrite <- Ek1; apply token_tok_at; eauto.
          eapply dp_nil. rewrite <- E2; apply token_tok_at; eauto.
        + esafe_b. apply (IH b (tv t :: named) c1 t2 c2); auto; [|lia].
          eapply pt_name; eauto. rewrite <- Ek1; apply token_tok_at; eauto.
          intros [[vs c3]|] Hr; cbn [esafe]; auto.
          destruct Hr as [Hdp [ps [rest [-> [Hps [Hnd [Hfr Hre]]]]]]]. split.
          * eapply dp_cons; eauto. rewrite <- Ek1; apply token_tok_at; eauto.
          * exists (VIdent (tp t) (tv t) :: ps), rest. cbn [map name_of app].
            split; [auto|split; [|split; [|split; [|auto]]]].
            -- constructor; auto.
            -- constructor; auto. intros Hin. apply (Hfr _ Hin). left; auto.
            -- intros x [<-|Hin] Hx; [contradiction|]. apply (Hfr _ Hin). right; auto.
      - cbn [esafe]. split; auto. eapply dp_last; eauto. rewrite <- Ek1; apply token_tok_at; eauto. }
    destruct (ch_in iswhite (peek c)) eqn:Ew.
    + eapply (esafe_bind _ (fun b : bool => b = true -> exists p c', tok_at KComma c p c')).
      { tpeekstep t1 Ht1. cbn. intros E1. apply tok_eqb_eq in E1. destruct Ht1 as [c' Ht1].
        exists (tp t1), c'. rewrite <- E1. apply token_tok_at; auto. }
      intros [|] Hcm; [|apply Hrest]. destruct (Hcm eq_refl) as [p [c' Hc']]. apply esafe_raise; auto.
      apply ch_in_peek in Ew. destruct Ew as [r [q [u [-> Hr]]]]. eapply ef_comma; [ |reflexivity|exact Hr|exact Hc'].
      left. eauto.
    + cbn [bind]. apply Hrest.
  - tgetstep t1 c1 Ht1. destruct (tok_eqb (tk t1) KArrow) eqn:E1;
      [|eapply (unexpected_esafe _ _ _ _ [KArrow]);
        [eassumption|assumption| |intros [X|[]]; rewrite <- X, tok_eqb_refl in E1; discriminate];
        intros; eapply wa_dots; [ |exact Ht|exact Ek|eassumption|cbn; auto]; assumption].
    apply tok_eqb_eq in E1. cbn [esafe]. split.
    + eapply dp_rest; eauto. rewrite <- E1; apply token_tok_at; eauto.
    + exists [], [VIdent (tp t) (tv t)]. cbn.
      split; [auto|split; [constructor|split; [constructor|split; [auto|]]]].
      * right. eexists; split; eauto. cbn.
        destruct Ht as [d [_ [_ H']]]. rewrite Ek in H'. destruct H' as [_ Hl]. exact Hl.
  - cbn [esafe]. split.
    + eapply dp_nil. rewrite <- Ek; apply token_tok_at; eauto.
    + exists [], []. cbn. split; [auto|split; [constructor|split; [constructor|split; auto]]].
Qed.

Lemma dict_loop_esafe lit start : sfx start B -> (clen start <= n)%nat -> name_start start ->
  forall m empty c, sfx c B -> (lit = true -> key_due B c) -> (lit = false -> operand_due B D c) -> (clen c < m)%nat -> (clen c < n)%nat ->
  esafe B D (fun '(r, c') => match r with
            | inl kvs => dentries lit c kvs c'
            | inr v => dexpr 9 start v c'
            end) (dict_loop e1 m lit empty start c).
Proof.
  intros Hst Hsn Hname. induction m as [|m IH]; intros empty c Hs Hdue Hdu Hm Hn; [lia|]. cbn [dict_loop].
  eapply (esafe_bind _ (fun '(k, c1) => dkey lit c k c1)).
  { destruct lit.
    - eapply esafe_imp; [|apply litkey_esafe; auto; solve [auto]].
      intros [v c'] [d [r [x [p [t [s [-> [Hb [Hd [Hsp Hk]]]]]]]]]]. eapply dk_lit; eauto.
    - eapply esafe_imp; [|apply He1; auto]. intros [v c'] Hv. constructor; auto. }
  intros [key c1] Hk.
  assert (Hsh : shrinks c c1) by (eapply dkey_shrinks; eauto). fw.
  assert (Hwa : forall ks, In ks [[KColon; KCClose]; [KColon]] -> forall d, blank c1 d -> wanted B D d ks).
  { intros ks Hks d Hd. apply (wa_key B D lit c key c1); auto. }
  tgetstep t c2 Ht. destruct (tk t) eqn:Ek;
    try solve [eapply (unexpected_esafe _ _ _ _ [KColon; KCClose]); [eassumption|assumption|apply Hwa; cbn; auto|notin]].
  - assert (Htk : tok_at KColon c1 (tp t) c2) by (rewrite <- Ek; apply token_tok_at; auto).
    e1step val c3 Hval. tgetstep t2 c4 Ht2. destruct (tk t2) eqn:Ek2; try after [KComma; KCClose].
    + cbn [esafe]. eapply de_last; eauto. rewrite <- Ek2. apply token_tok_at; auto.
    + assert (Htk2 : tok_at KComma c3 (tp t2) c4) by (rewrite <- Ek2; apply token_tok_at; auto).
      tgetstep t3 c5 Ht3. destruct (tok_eqb (tk t3) KCClose) eqn:E3.
      * apply tok_eqb_eq in E3. cbn [esafe]. eapply de_cons; eauto.
        eapply de_nil. rewrite <- E3. apply token_tok_at; eauto.
      * esafe_b. apply (IH false c4); auto; [|intros _; due|lia..].
        { intros ->. right. exists c, key, c1, (tp t), c2, val, c3, (tp t2). auto. }
        intros [[kvs|v] c6] Hr; cbn [esafe]; auto. eapply de_cons; eauto.
  - destruct empty; cbn [negb];
      [|eapply (unexpected_esafe _ _ _ _ [KColon]); [eassumption|assumption|apply Hwa; cbn; auto|notin]].
    esafe_b. apply identifier_esafe; auto. intros [v c3] Hv. cbn [esafe]. exact Hv.
Qed.

Lemma dict_esafe lit start p c : sfx start B -> (clen start <= n)%nat -> name_start start ->
  tok_at (if lit : bool then KLitCOpen else KCOpen) start p c ->
  esafe B D (is_expr_at 9 start) (parse_dict e1 lit p start c).
Proof.
  intros Hst Hsn Hname Hopen. unfold parse_dict.
  pose proof (tok_at_sfx _ _ _ _ Hopen).
  assert (Hl : (clen c < clen start)%nat) by (eapply tok_at_clen; eauto; destruct lit; discriminate). fw.
  tgetstep t c1 Ht. destruct (tok_eqb (tk t) KCClose) eqn:E.
  - apply tok_eqb_eq in E. cbn [esafe is_expr_at]. eapply d_dict; eauto.
    eapply de_nil. rewrite <- E. apply token_tok_at; auto.
  - esafe_b. apply (dict_loop_esafe lit start Hst Hsn Hname (S (clen c)) true c); auto; [| |lia..].
    { intros ->. left. eauto. }
    { intros ->. due. }
    intros [[kvs|v] c2] Hr; cbn [esafe is_expr_at]; auto. eapply d_dict; eauto.
Qed.

Lemma brace_esafe lit start p c : sfx start B -> (clen start <= n)%nat -> name_start start ->
  tok_at (if lit : bool then KLitCOpen else KCOpen) start p c ->
  esafe B D (is_expr_at 9 start) (parse_brace e1 lit p start c).
Proof.
  intros Hst Hsn Hname Hopen. unfold parse_brace.
  pose proof (tok_at_sfx _ _ _ _ Hopen).
  assert (Hl : (clen c < clen start)%nat) by (eapply tok_at_clen; eauto; destruct lit; discriminate). fw.
  tgetstep t c1 Ht.
  eapply (esafe_bind _ (fun _ => True)).
  { destruct (tk t); try exact I; try (tpeekstep t2 Ht2; exact I). }
  intros [|] _; [|apply dict_esafe; auto].
  esafe_b. apply (lambda_loop_esafe c ltac:(assumption) (S (S (clen c1))) false [] c t c1); auto. constructor.
  intros [[vs c2]|] Hr; [|apply dict_esafe; auto].
  destruct Hr as [Hdp [ps [rest [-> [Hps [Hnd [_ Hre]]]]]]].
  pose proof (dparams_sfx _ _ _ Hdp). fw.
  assert (Hdu : operand_due B D c2).
  { destruct (dparams_arrow _ _ _ Hdp) as [ca [ta [K1 [K2 K3]]]]. right. left. exists ca, ta. split; [eapply sfx_trans; eauto|]. rewrite K3. split; [auto|exact I]. }
  e1step body c3 Hbody. tgetstep t2 c4 Ht2.
  destruct (tok_eqb (tk t2) KCClose) eqn:E2; cbn [negb]; [|after_eqb [KCClose]].
  apply tok_eqb_eq in E2. cbn [esafe is_expr_at]. eapply d_lambda; eauto.
  - exists ps, rest. auto.
  - rewrite <- E2. apply token_tok_at; auto.
Qed.

(** ** Operands and postfix operators *)

(** A register name is missing only at the end of a line. *)
Lemma bare_register c t c1 : tget c = Ok (t, c1) -> token_at c t c1 ->
  tk t = KReg -> tv t = T "@" -> peek1 c1 = None.
Proof.
  unfold tget. intros E [d [Hb [_ H]]] Hk Hv. rewrite Hk in H. destruct H as [Sp _]. rewrite Hv in Sp.
  rewrite <- (blank_fun _ _ Hb) in E. cbn [spells] in Sp. destruct d as [|[|r] p u]; try contradiction.
  destruct Sp as [-> <-]. destruct u as [|[|r] q u]; auto.
  exfalso. unfold get2 in E. cbn in E. inversion E. subst t. discriminate.
Qed.

Lemma lit_not_at k s : In k [KNumber; KBlob; KOption; KEnv] -> lexeme k s -> s <> T "@".
Proof.
  intros Hk Hl ->. cbn [In] in Hk. destruct Hk as [<-|[<-|[<-|[<-|[]]]]]; cbn in Hl.
  - inversion Hl as [s [_ H] E|a b [Ha H] [Hb _] E|a b e sg x [Ha H] [Hb _] _ _ _ E| |]; subst; [discriminate| |].
    all: destruct a as [|y a]; [congruence|]; injection E as -> E; discriminate.
  - destruct Hl as [z [b [_ [_ [_ [=]]]]]].
  - destruct Hl as [z [b [_ [_ [=]]]]].
  - destruct Hl as [b [_ [=]]].
Qed.

Ltac lit9 := cbn [esafe is_expr_at]; eapply d_lit; [eassumption| |];
  [match goal with H : tk _ = _ |- _ => rewrite H; reflexivity end|].

Lemma quote_at c t c' r : token_at c t c' -> spelling (tk t) = Some [r] -> ch_is (peek (skip_white c)) r = true.
Proof.
  intros [d [Hb [_ H]]] Hk. rewrite <- (blank_fun _ _ Hb).
  assert (Hl : spells (tv t) d c' /\ lexeme (tk t) (tv t)) by (destruct (tk t); auto; discriminate).
  destruct Hl as [Sp Hl]. unfold lexeme in Hl. rewrite Hk in Hl. rewrite Hl in Sp. cbn [spells] in Sp.
  destruct d as [|[|r'] p u]; try contradiction. destruct Sp as [-> _]. apply N.eqb_refl.
Qed.

Ltac no_operand wa := solve [eapply (unexpected_esafe _ _ _ _ _);
  [eassumption | assumption |
   intros; eapply wa; [eassumption | eassumption |]; intros w x Hw Sp;
   destruct (sid_token _ _ _ _ _ _ ltac:(eassumption) ltac:(eassumption) Hw Sp); congruence | notin]].

Lemma expr9_esafe c : sfx c B -> operand_due B D c -> (clen c <= n)%nat -> esafe B D (is_expr_at 9 c) (parse_expr9 e1 c).
Proof.
  intros Hs Hdu Hn. unfold parse_expr9.
  pose proof (bare_register c) as Hreg. revert Hreg.
  pose proof (tget_esafe (D := D) B c HB Hs) as Hsafe.
  destruct (tget c) as [[t c1]| | |]; auto. cbn [esafe bind] in *. intros Hreg.
  specialize (Hreg t c1 eq_refl Hsafe). rename Hsafe into Ht. fw.
  pose proof (start_of_token _ _ _ Ht) as Hstart.
  destruct (tk t) eqn:Ek; try no_operand wa_operand; try (lit9; exact (Hreg eq_refl));
   try (lit9; intros Hv; destruct Ht as [? [_ [_ Ht]]]; rewrite Ek in Ht;
    destruct Ht as [_ Hl]; exfalso; eapply lit_not_at; [|exact Hl|exact Hv]; cbn [In]; auto 6; fail).
  - (* comparison tokens *)
    destruct o; try no_operand wa_operand; destruct m; try no_operand wa_operand;
      try (apply identifier_esafe; auto; fail).
    destruct (equalci (peekn 4 c1) (T "SID>")) eqn:E; [|no_operand wa_operand].
    apply identifier_esafe; auto. eapply start_of_sid; eauto.
  - (* ( *)
    tokfact Ht Ek. e1step v c2 Hv. tgetstep t2 c3 Ht2.
    destruct (tok_eqb (tk t2) KPClose) eqn:E2; cbn [negb]; [|after_eqb [KPClose]].
    apply tok_eqb_eq in E2. cbn [esafe is_expr_at]. eapply d_paren; eauto.
    rewrite <- Ek; apply token_tok_at; auto. rewrite <- E2; apply token_tok_at; eauto.
  - (* [ *)
    tokfact Ht Ek. eapply esafe_imp; [|apply list_esafe; auto; [due|lia]].
    intros [v c2] [vs [-> Hvs]]. eapply d_list; eauto. rewrite <- Ek; apply token_tok_at; auto.
  - (* { *)
    apply brace_esafe; auto. rewrite <- Ek. apply token_tok_at; auto.
  - (* ' *)
    eapply esafe_bind; [apply get_sstring_esafe; auto; eapply quote_at; [exact Ht|rewrite Ek; reflexivity]|]. intros [s c2] [d [Hb [Hq Sp]]].
    cbn [esafe is_expr_at]. destruct Ht as [d' [Hb' [Hp _]]]. rewrite Hp.
    replace d' with d by (rewrite (blank_fun _ _ Hb'); apply blank_fun; auto).
    eapply d_string; eauto. right. eauto.
  - eapply esafe_bind; [apply get_dstring_esafe; auto; eapply quote_at; [exact Ht|rewrite Ek; reflexivity]|]. intros [s c2] [d [Hb [Hq Sp]]].
    cbn [esafe is_expr_at]. destruct Ht as [d' [Hb' [Hp _]]]. rewrite Hp.
    replace d' with d by (rewrite (blank_fun _ _ Hb'); apply blank_fun; auto).
    eapply d_string; eauto. left. eauto.
  - apply identifier_esafe; auto.
  - apply brace_esafe; auto. rewrite <- Ek. apply token_tok_at; auto.
Qed.

Lemma slice_tail_esafe p lft r0 c : sfx c B -> operand_due B D c -> (clen c < n)%nat ->
  esafe B D (fun '(v, c') => exists y c5 r, v = VSlice p lft r0 y /\ dopt c y c5 /\
                          tok_at KSqClose c5 r c') (slice_tail e1 p lft r0 c).
Proof.
  intros Hs Hdu Hn. unfold slice_tail.
  pose proof (tget_esafe (D := D) B c HB Hs) as Hg. unfold tpeek. destruct (tget c) as [[t ct]| | |] eqn:Eg; auto.
  cbn [esafe bind] in *.
  eapply (esafe_bind _ (fun '(y, c1) => dopt c y c1 /\ (y = None -> c1 = c /\ tk t = KSqClose))).
  { destruct (tok_eqb (tk t) KSqClose) eqn:E1; cbn [negb].
    - cbn [esafe]. split; [constructor|]. intros _. split; auto. apply tok_eqb_eq; auto.
    - e1step v c' Hv. cbn [esafe]. split; [constructor; auto|discriminate]. }
  intros [y c1] [Hy Hnone]. pose proof (dopt_sfx _ _ _ Hy). fw.
  destruct y as [v|]; [|destruct (Hnone eq_refl) as [-> Hk]; rewrite Eg; cbn [bind]; rewrite Hk;
    cbn [tok_eqb negb esafe]; exists None, c, (tp t); repeat split; auto; rewrite <- Hk; apply token_tok_at; auto].
  inversion Hy as [|? ? ? Hv]; subst.
  tgetstep t2 c2 Ht2. destruct (tok_eqb (tk t2) KSqClose) eqn:E2; cbn [negb]; [|after_eqb [KSqClose]].
  apply tok_eqb_eq in E2. cbn [esafe]. exists (Some v), c1, (tp t2). repeat split; auto.
  rewrite <- E2. apply token_tok_at; auto.
Qed.

Lemma subscript_esafe p lft c : sfx c B -> operand_due B D c -> (clen c < n)%nat ->
  esafe B D (fun '(v, c') =>
     (exists b c3 q, v = VSubscript p lft b /\ dexpr 1 c b c3 /\ tok_at KSqClose c3 q c') \/
     (exists x c3 q c4 y c5 r, v = VSlice p lft x y /\ dopt c x c3 /\ tok_at KColon c3 q c4 /\
        dopt c4 y c5 /\ tok_at KSqClose c5 r c'))
    (parse_subscript e1 p lft c).
Proof.
  intros Hs Hdu Hn. unfold parse_subscript. tgetstep t c1 Ht.
  destruct (tok_eqb (tk t) KColon) eqn:E.
  - apply tok_eqb_eq in E. eapply esafe_imp; [|apply slice_tail_esafe; auto; [due|lia]].
    intros [v c'] [y [c5 [r [-> [Hy Hc]]]]]. right.
    exists None, c, (tp t), c1, y, c5, r. repeat split; auto. constructor.
    rewrite <- E; apply token_tok_at; auto.
  - e1step rgt c2 Hr. tgetstep t2 c3 Ht2. destruct (tok_eqb (tk t2) KColon) eqn:E2.
    + apply tok_eqb_eq in E2. eapply esafe_imp; [|apply slice_tail_esafe; auto; [due|lia]].
      intros [v c'] [y [c5 [r [-> [Hy Hc]]]]]. right.
      exists (Some rgt), c2, (tp t2), c3, y, c5, r. repeat split; auto. constructor; auto.
      rewrite <- E2; apply token_tok_at; auto.
    + destruct (tok_eqb (tk t2) KSqClose) eqn:E3; cbn [negb]; [|after_eqb [KColon; KSqClose]].
      apply tok_eqb_eq in E3. cbn [esafe]. left. exists rgt, c2, (tp t2). repeat split; auto.
      rewrite <- E3; apply token_tok_at; auto.
Qed.

Lemma parse_dot_esafe t lft c :
  match parse_dot t lft c with
  | Ok (Some (v, c')) => exists s, v = VDot (tp t) lft (VIdent (getpos c) s) /\ dot_base lft /\
       spells s c c' /\ some_of iswordc s /\ ch_in isnamec (peek c') = false
  | Ok None => True
  | _ => False
  end.
Proof.
  unfold parse_dot. destruct (dot_left_ok lft) eqn:Ed; cbn [negb]; [|exact I].
  rewrite p_0. cbn [bind]. destruct (ch_in iswordc (peek c)) eqn:E; cbn [negb]; [|exact I].
  destruct (read_word c) as [name c1] eqn:E1. pose proof (read_some _ _ _ _ E1 E) as Hsome.
  apply read_while_spells in E1. destruct E1 as [Sp _].
  rewrite p_0. cbn [bind]. destruct (ch_in isnamec (peek c1)) eqn:E2; [exact I|].
  exists name. repeat split; auto; try apply Hsome. destruct lft; try discriminate; exact I.
Qed.

Lemma no_blank_peek c : ch_in iswhite (peek c) = false -> no_blank c.
Proof. intros H r Hr. destruct c as [|[|r'] p t]; try discriminate. inversion Hr; subst. exact H. Qed.

Lemma expr8_loop_esafe c0 : forall m lft c, dexpr 8 c0 lft c -> sfx c B ->
  (clen c < m)%nat -> (clen c < n)%nat ->
  esafe B D (is_expr_at 8 c0) (expr8_loop e1 m lft c).
Proof.
  induction m as [|m IH]; intros lft c Hl Hs Hm Hn; [lia|]. cbn [expr8_loop].
  tgetstep t c1 Ht. destruct (tk t) eqn:Ek; try exact Hl.
  - (* dot *)
    destruct (ch_in iswhite (peek c)) eqn:Ew; [exact Hl|]. tokfact Ht Ek.
    pose proof (parse_dot_esafe t lft c1) as Hd.
    destruct (parse_dot t lft c1) as [[[l2 c2]|]| | |]; try contradiction; cbn [bind]; [|exact Hl].
    destruct Hd as [s [-> [Hbase [Sp [Hsome Hnx]]]]]. pose proof (spells_sfx _ _ _ Sp). fw.
    apply IH; auto; try lia. eapply d_dot; eauto. apply no_blank_peek; auto.
    rewrite <- Ek; apply token_tok_at; auto.
  - (* ( *)
    tokfact Ht Ek. esafe_b. apply rlist_esafe; auto; [due|lia]. intros [args c2] [Ha Hlen].
    pose proof (dlist_sfx _ _ _ _ Ha). fw.
    apply IH; auto; try lia. eapply d_call; eauto. rewrite <- Ek; apply token_tok_at; auto.
  - (* [ *)
    destruct (ch_in iswhite (peek c)) eqn:Ew; [exact Hl|]. tokfact Ht Ek.
    apply no_blank_peek in Ew.
    assert (Htk : tok_at KSqOpen c (tp t) c1) by (rewrite <- Ek; apply token_tok_at; auto).
    esafe_b. apply (subscript_esafe (tp t) lft c1); auto; [due|lia].
    intros [l2 c2] [[b [c3 [q [-> [Hb Hq]]]]]|[x [c3 [q [c4 [y [c5 [r [-> [Hx [Hq [Hy Hr]]]]]]]]]]]].
    + assert (sfx c2 c1) by (apply dexpr_shrinks in Hb; sfx_auto). fw.
      apply IH; auto; try lia. eapply d_subscript; eauto.
    + assert (sfx c2 c1) by (apply dopt_sfx in Hx; apply dopt_sfx in Hy; sfx_auto). fw.
      apply IH; auto; try lia. eapply d_slice; eauto.
  - (* -> *)
    tokfact Ht Ek. esafe_b. apply expr9_esafe; auto; [due|lia]. intros [f c2] Hf. unfold is_expr_at in Hf. fw.
    tgetstep t2 c3 Ht2. destruct (tok_eqb (tk t2) KPOpen) eqn:E2; cbn [negb];
      [|eapply raise_tok_esafe; [eassumption|assumption|]; intros; eapply ef_paren; [eassumption| |exact Hf|eassumption|];
        [assumption|]; intros X; rewrite X in E2; discriminate].
    apply tok_eqb_eq in E2. esafe_b. apply rlist_esafe; auto; [due|lia]. intros [args c4] [Ha Hlen].
    pose proof (dlist_sfx _ _ _ _ Ha). fw.
    apply IH; auto; try lia. eapply d_method; eauto; [rewrite <- Ek|rewrite <- E2]; apply token_tok_at; auto.
Qed.

Lemma expr8_esafe c : sfx c B -> operand_due B D c -> (clen c <= n)%nat -> esafe B D (is_expr_at 8 c) (parse_expr8 e1 c).
Proof.
  intros Hs Hdu Hn. unfold parse_expr8. esafe_b. apply expr9_esafe; auto.
  intros [v c1] Hv. unfold is_expr_at in Hv. fw.
  apply expr8_loop_esafe; auto; try lia. apply d_up; [lia|auto].
Qed.

(** ** Operators *)

Lemma level_before l k o : level_op l k = Some o -> before_operand k.
Proof. destruct l as [|[|[|[|[|[|[|]]]]]]]; destruct k; cbn; try discriminate; auto. Qed.

Lemma expr7_loop_esafe : forall m c, sfx c B -> operand_due B D c -> (clen c < m)%nat -> (clen c <= n)%nat ->
  esafe B D (is_expr_at 7 c) (expr7_loop e1 m c).
Proof.
  induction m as [|m IH]; intros c Hs Hdu Hm Hn; [lia|]. cbn [expr7_loop].
  tgetstep t c1 Ht.
  assert (H8 : esafe B D (is_expr_at 7 c) (parse_expr8 e1 c)).
  { eapply esafe_imp; [|apply expr8_esafe; auto]. intros [v c'] Hv. apply d_up; [lia|auto]. }
  destruct (tk t) eqn:Ek; try exact H8;
    (tokfact Ht Ek; esafe_b; [apply (IH c1); auto; [due|lia..]|]; intros [v c2] Hv; cbn [esafe is_expr_at];
     eapply (d_unary _ (tk t)); [apply token_tok_at; eauto | rewrite Ek; reflexivity | exact Hv]).
Qed.

Lemma expr7_esafe c : sfx c B -> operand_due B D c -> (clen c <= n)%nat -> esafe B D (is_expr_at 7 c) (parse_expr7 e1 c).
Proof. intros. unfold parse_expr7. apply expr7_loop_esafe; auto. Qed.

Lemma bin_loop_esafe l sub ops c0
  (Hsub : forall c, sfx c B -> operand_due B D c -> (clen c <= n)%nat -> esafe B D (is_expr_at (S l) c) (sub c))
  (Hops : forall k o, ops k = Some o -> level_op l k = Some o) :
  forall m lft c, dexpr l c0 lft c -> sfx c B -> (clen c < m)%nat -> (clen c <= n)%nat ->
  esafe B D (is_expr_at l c0) (bin_loop sub ops m lft c).
Proof.
  induction m as [|m IH]; intros lft c Hl Hs Hm Hn; [lia|]. cbn [bin_loop].
  tgetstep t c1 Ht. destruct (ops (tk t)) as [o|] eqn:Eo; [|exact Hl].
  apply Hops in Eo.
  assert (Hlt : (clen c1 < clen c)%nat).
  { eapply token_clen; eauto. intros E; rewrite E in Eo. destruct l as [|[|[|[|[|[|[|]]]]]]]; discriminate. }
  esafe_b. apply (Hsub c1); auto; [right; left; exists c, t; eauto using level_before|lia]. intros [rgt c2] Hr. unfold is_expr_at in Hr. fw.
  apply IH; auto; try lia. eapply d_binary; eauto. apply token_tok_at; auto.
Qed.

Lemma bin_level_esafe l sub ops
  (Hl : (1 <= l <= 8)%nat)
  (Hsub : forall c, sfx c B -> operand_due B D c -> (clen c <= n)%nat -> esafe B D (is_expr_at (S l) c) (sub c))
  (Hops : forall k o, ops k = Some o -> level_op l k = Some o) c :
  sfx c B -> operand_due B D c -> (clen c <= n)%nat -> esafe B D (is_expr_at l c) (bin_level sub ops c).
Proof.
  intros Hs Hdu Hn. unfold bin_level. esafe_b. apply (Hsub c); auto.
  intros [v c1] Hv. unfold is_expr_at in Hv. fw.
  apply bin_loop_esafe; auto; try lia. apply d_up; [lia|auto].
Qed.

Lemma expr6_esafe c : sfx c B -> operand_due B D c -> (clen c <= n)%nat -> esafe B D (is_expr_at 6 c) (parse_expr6 e1 c).
Proof.
  apply bin_level_esafe. lia. apply expr7_esafe.
  intros k o; destruct k; cbn; intros; congruence.
Qed.
Lemma expr5_esafe c : sfx c B -> operand_due B D c -> (clen c <= n)%nat -> esafe B D (is_expr_at 5 c) (parse_expr5 e1 c).
Proof.
  apply bin_level_esafe. lia. apply expr6_esafe.
  intros k o; destruct k; cbn; intros; congruence.
Qed.
Lemma expr4_esafe c : sfx c B -> operand_due B D c -> (clen c <= n)%nat -> esafe B D (is_expr_at 4 c) (parse_expr4 e1 c).
Proof.
  intros Hs Hdu Hn. unfold parse_expr4. esafe_b. apply expr5_esafe; auto.
  intros [lft c1] Hl. unfold is_expr_at in Hl. fw. tgetstep t c2 Ht.
  destruct (tk t) eqn:Ek; try (cbn [esafe is_expr_at]; apply d_up; [lia|auto]).
  tokfact Ht Ek. esafe_b. apply (expr5_esafe c2); auto; [due|lia]. intros [rgt c3] Hr.
  cbn [esafe is_expr_at]. eapply d_compare; eauto. rewrite <- Ek; apply token_tok_at; auto.
Qed.
Lemma expr3_esafe c : sfx c B -> operand_due B D c -> (clen c <= n)%nat -> esafe B D (is_expr_at 3 c) (parse_expr3 e1 c).
Proof.
  apply bin_level_esafe. lia. apply expr4_esafe.
  intros k o; destruct k; cbn; intros; congruence.
Qed.
Lemma expr2_esafe c : sfx c B -> operand_due B D c -> (clen c <= n)%nat -> esafe B D (is_expr_at 2 c) (parse_expr2 e1 c).
Proof.
  apply bin_level_esafe. lia. apply expr3_esafe.
  intros k o; destruct k; cbn; intros; congruence.
Qed.

Lemma expr1_body_esafe c : sfx c B -> operand_due B D c -> (clen c <= n)%nat -> esafe B D (is_expr_at 1 c) (expr1_body e1 c).
Proof.
  intros Hs Hdu Hn. unfold expr1_body. esafe_b. apply expr2_esafe; auto.
  intros [lft c1] Hl. unfold is_expr_at in Hl. fw. tgetstep t c2 Ht.
  destruct (tok_eqb (tk t) KQuestion) eqn:E; [|cbn [esafe is_expr_at]; apply d_up; [lia|auto]].
  apply tok_eqb_eq in E. e1step a c3 Ha. tgetstep t2 c4 Ht2.
  destruct (tok_eqb (tk t2) KColon) eqn:E2; cbn [negb]; [|after_eqb [KColon]]. apply tok_eqb_eq in E2.
  e1step b c5 Hb. cbn [esafe is_expr_at].
  eapply d_ternary; eauto; [rewrite <- E|rewrite <- E2]; apply token_tok_at; eauto.
Qed.

(** ** Lvalues *)

Definition is_lval_at (c : cursor) : vnode * cursor -> Prop := fun '(v, c') => dlval c v c'.

Lemma lv9_esafe c : sfx c B -> target_due B D c -> (clen c <= n)%nat -> esafe B D (is_lval_at c) (parse_lv9 e1 c).
Proof.
  intros Hs Hdu Hn. unfold parse_lv9. tgetstep t c1 Ht.
  pose proof (start_of_token _ _ _ Ht) as Hstart.
  assert (Hid : name_start c -> esafe B D (is_lval_at c) (parse_identifier e1 c)).
  { intros HH. eapply esafe_imp; [|apply identifier_esafe_gen; auto]. intros [v c'] [_ HH2]; exact HH2. }
  destruct (tk t) eqn:Ek; try no_operand wa_target; auto;
   try (cbn [esafe is_lval_at]; eapply lv_lit; eauto; rewrite Ek; cbn; auto; fail).
  destruct o; try no_operand wa_target; destruct m; try no_operand wa_target.
  destruct (equalci (peekn 4 c1) (T "SID>")) eqn:E; [|no_operand wa_target].
  apply Hid. eapply start_of_sid; eauto.
Qed.

Lemma lv8_loop_esafe c0 : forall m lft c, dlval c0 lft c -> sfx c B ->
  (clen c < m)%nat -> (clen c < n)%nat ->
  esafe B D (is_lval_at c0) (lv8_loop e1 m lft c).
Proof.
  induction m as [|m IH]; intros lft c Hl Hs Hm Hn; [lia|]. cbn [lv8_loop].
  tgetstep t c1 Ht. destruct (tk t) eqn:Ek; try exact Hl.
  - (* dot *)
    destruct (ch_in iswhite (peek c)) eqn:Ew; [exact Hl|]. tokfact Ht Ek.
    pose proof (parse_dot_esafe t lft c1) as Hd.
    destruct (parse_dot t lft c1) as [[[l2 c2]|]| | |]; try contradiction; cbn [bind]; [|exact Hl].
    destruct Hd as [s [-> [Hbase [Sp [Hsome Hnx]]]]]. pose proof (spells_sfx _ _ _ Sp). fw.
    apply IH; auto; try lia. eapply lv_dot; eauto. apply no_blank_peek; auto.
    rewrite <- Ek; apply token_tok_at; auto.
  - (* [ *)
    destruct (ch_in iswhite (peek c)) eqn:Ew; [exact Hl|]. tokfact Ht Ek.
    apply no_blank_peek in Ew.
    assert (Htk : tok_at KSqOpen c (tp t) c1) by (rewrite <- Ek; apply token_tok_at; auto).
    esafe_b. apply (subscript_esafe (tp t) lft c1); auto; [due|lia].
    intros [l2 c2] [[b [c3 [q [-> [Hb Hq]]]]]|[x [c3 [q [c4 [y [c5 [r [-> [Hx [Hq [Hy Hr]]]]]]]]]]]].
    + assert (sfx c2 c1) by (apply dexpr_shrinks in Hb; sfx_auto). fw.
      apply IH; auto; try lia. eapply lv_subscript; eauto.
    + assert (sfx c2 c1) by (apply dopt_sfx in Hx; apply dopt_sfx in Hy; sfx_auto). fw.
      apply IH; auto; try lia. eapply lv_slice; eauto.
Qed.

Lemma lv8_esafe c : sfx c B -> target_due B D c -> (clen c <= n)%nat -> esafe B D (is_lval_at c) (parse_lv8 e1 c).
Proof.
  intros Hs Hdu Hn. unfold parse_lv8. esafe_b. apply lv9_esafe; auto.
  intros [v c1] Hv. unfold is_lval_at in Hv. pose proof (dlval_shrinks _ _ _ Hv). fw.
  apply lv8_loop_esafe; auto; try lia.
Qed.

End Safe.

(** * Tying the knot *)

Lemma parse_expr1_esafe {D} B : wf B -> forall f c, sfx c B -> operand_due B D c -> (clen c < f)%nat ->
  esafe B D (is_expr_at 1 c) (parse_expr1 f c).
Proof.
  intros HB. induction f as [|f IH]; intros c Hs Hd Hf; [lia|]. cbn [parse_expr1].
  apply (expr1_body_esafe B D HB f); auto. lia.
Qed.

Lemma parse_expr_esafe {D} B c : wf B -> sfx c B -> operand_due B D c -> esafe B D (is_expr_at 1 c) (parse_expr c).
Proof. intros. apply parse_expr1_esafe; auto. Qed.

Lemma parse_lvalue_esafe {D} B c : wf B -> sfx c B -> target_due B D c -> esafe B D (is_lval_at c) (parse_lvalue_ c).
Proof.
  intros HB Hs Hd. apply (lv8_esafe B D HB (clen c)); auto. intros. apply parse_expr1_esafe; auto.
Qed.

(** parse_identifier as called by :function with the expression parser's own recursion. *)
Lemma dname_expr_only {D} B f c : wf B -> sfx c B -> (clen c <= f)%nat -> name_start c ->
  esafe B D (is_expr_at 9 c) (parse_identifier (parse_expr1 f) c).
Proof.
  intros HB Hs Hf Hn. apply (identifier_esafe B D f); auto. intros. apply parse_expr1_esafe; auto.
Qed.
