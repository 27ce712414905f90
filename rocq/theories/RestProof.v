(** The rest of the line after an expression is not looked at. *)
From Coq Require Import Lia ZifyBool ZifyNat ZifyN.
From Verif Require Import Base Utf8 CharClass Reader Vnode Token Ast Cursor Grammar TokSafe ExprSafe
  Tokenizer ExprParser Export ExportSafe Api ApiExpr Places PlacesProof LinesProof OneLine Nodes Join JoinProof
  Written WrittenProof Rest.

Lemma number_kind c : wf c -> ch_in isdigit (peek c) = true -> exists t d, get2_number c = Ok (t, d) /\ tk t = KNumber.
Proof.
  intros Hw Hd. unfold get2_number, read_digit.
  destruct (read_while isdigit c) as [s c1] eqn:E1. apply read_while_spells in E1. destruct E1 as [Sp1 _].
  assert (Hw1 : wf c1) by (eapply wf_sfx; [eapply spells_sfx|]; eauto).
  rewrite p_0. cbn [bind].
  destruct (ch_is (peek c1) (C ".")) eqn:E2; [|cbn [bind]; eauto].
  destr_ch E2. rewrite p_S, p_0 by auto. cbn [bind].
  destruct (ch_in isdigit (peek t)) eqn:E3; [|eauto].
  cbn [getn]. destruct (read_while isdigit t) as [s3 c3] eqn:E4. apply read_while_spells in E4. destruct E4 as [Sp3 _].
  assert (Hw3 : wf c3) by (eapply wf_sfx; [eapply spells_sfx; eauto|]; eapply wf_tail; eauto).
  rewrite p_0. cbn [bind].
  destruct (ch_is (peek c3) (C "E") || ch_is (peek c3) (C "e")) eqn:E5; [|cbn [bind]; eauto].
  assert (exists r p1 t1, c3 = Cons (R r) p1 t1) as [r [p1 [t1 ->]]].
  { apply orb_true_iff in E5. destruct E5 as [E5|E5]; apply ch_is_peek in E5; destruct E5 as [? [? ->]]; eauto. }
  rewrite p_S, p_0 by auto. cbn [bind]. pose proof (wf_tail _ _ _ Hw3) as Hw4.
  destruct (ch_in isdigit (peek t1)) eqn:E6.
  - cbn [bind getn]. destruct t1 as [|[|r2] p2 t2]; destruct (read_while _ _); eauto.
  - destruct (ch_is (peek t1) (C "-") || ch_is (peek t1) (C "+")) eqn:E7; [|cbn [bind]; eauto].
    assert (exists r p1 t2, t1 = Cons (R r) p1 t2) as [r2 [p2 [t2 ->]]].
    { apply orb_true_iff in E7. destruct E7 as [E7|E7]; apply ch_is_peek in E7; destruct E7 as [? [? ->]]; eauto. }
    rewrite p_S, p_S, p_0 by auto. cbn [bind].
    destruct (ch_in isdigit (peek t2)); [|eauto]. cbn [getn]. destruct (read_while _ _); eauto.
Qed.

Lemma digit_kind r p t : wf (Cons (R r) p t) -> isdigit r = true ->
  (r = C "0" -> ch_is (peek t) (C "z") = false /\ ch_is (peek t) (C "Z") = false) ->
  exists k d, get2_digit r (Cons (R r) p t) = Ok (k, d) /\ tk k = KNumber.
Proof.
  intros Hw Hd Hz. pose proof (number_kind _ Hw Hd) as Hn. unfold get2_digit.
  destruct (r =? C "0") eqn:E0; [|exact Hn]. apply N.eqb_eq in E0. destruct (Hz E0) as [Z1 Z2].
  rewrite p_S, p_0 by auto. cbn [bind]. rewrite Z1, Z2. cbn [orb]. pose proof (wf_tail _ _ _ Hw) as Hw1.
  destruct (ch_is (peek t) (C "X") || ch_is (peek t) (C "x")) eqn:EX; [|destruct (ch_is (peek t) (C "B") || ch_is (peek t) (C "b")) eqn:EB; [|exact Hn]].
  - assert (exists r p1 t1, t = Cons (R r) p1 t1) as [r1 [p1 [t1 ->]]].
    { apply orb_true_iff in EX. destruct EX as [E|E]; apply ch_is_peek in E; destruct E as [? [? ->]]; eauto. }
    rewrite p_S, p_S, p_0 by auto. cbn [bind]. destruct (ch_in isxdigit (peek t1)); [|exact Hn].
    cbn [getn]. destruct t1 as [|[|r2] p2 t2]; unfold read_xdigit; destruct (read_while _ _); eauto.
  - assert (exists r p1 t1, t = Cons (R r) p1 t1) as [r1 [p1 [t1 ->]]].
    { apply orb_true_iff in EB. destruct EB as [E|E]; apply ch_is_peek in E; destruct E as [? [? ->]]; eauto. }
    rewrite p_S, p_S, p_0 by auto. cbn [bind]. destruct (ch_is (peek t1) (C "0") || ch_is (peek t1) (C "1")); [|exact Hn].
    cbn [getn]. destruct t1 as [|[|r2] p2 t2]; unfold read_bdigit; destruct (read_while _ _); eauto.
Qed.

Lemma end_peek f k : at_end k -> ch_in f (peek k) = false.
Proof. destruct k as [|[|r] ? ?]; try reflexivity. intros H; discriminate H. Qed.
Lemma peek_spells f z t m : spells z t m -> at_end m -> head_not f z -> ch_in f (peek t) = false.
Proof.
  destruct z as [|r z]; cbn [spells head_not]; intros Sp E H; [subst; apply end_peek; auto|].
  destruct t as [|[|r'] ? ?]; try contradiction. destruct Sp as [-> _]. exact H.
Qed.
Lemma peek_not (f : N -> bool) x t : ch_in f (peek t) = false -> f x = true -> ch_is (peek t) x = false.
Proof. intros H Hx. eapply cls_is; eauto. Qed.

Lemma word_kind r z p t m : wf (Cons (R r) p t) -> spells z t m -> at_end m ->
  (forall o u, In o [T "is"; T "isnot"] -> r :: z = o ++ u -> head_not iswordc u -> False) ->
  exists k d, get2_word r (Cons (R r) p t) = Ok (k, d) /\ tk k = KIdent.
Proof.
  intros Hw Sp He Hn. assert (Id : exists k d, get2_ident (Cons (R r) p t) = Ok (k, d) /\ tk k = KIdent).
  { unfold get2_ident. destruct (read_name _). eauto. }
  unfold get2_word. destruct (r =? C "i") eqn:E0; [|exact Id]. apply N.eqb_eq in E0. subst r.
  rewrite p_S, p_0 by auto. cbn [bind]. destruct (ch_is (peek t) (C "s")) eqn:E1; [|exact Id].
  destr_ch E1. pose proof (wf_tail _ _ _ Hw) as Hw1. pose proof (wf_tail _ _ _ Hw1) as Hw2. rewrite p_S, p_S, p_0 by auto. cbn [bind].
  destruct z as [|r1 z]; [cbn in Sp; subst m; discriminate He|]. cbn [spells] in Sp. destruct Sp as [<- Sp].
  destruct (negb (ch_in iswordc (peek t0))) eqn:E2.
  { exfalso. apply (Hn (T "is") z); [cbn; auto|reflexivity|]. apply negb_true_iff in E2.
    destruct z as [|r2 z]; [exact Logic.I|]. cbn [spells] in Sp. destruct t0 as [|[|r'] ? ?]; try contradiction. destruct Sp as [-> _]. exact E2. }
  destruct (p_match_spells (T "not") 2 (Cons (R (C "i")) p (Cons (R (C "s")) p0 t0)) t0 Hw2) as [[M [d' Sd]]|M].
  { intros j. change (2 + j)%nat with (S (S j)). rewrite p_S, p_S by auto. reflexivity. }
  - rewrite M. cbn [bind]. cbn in Sd.
    destruct t0 as [|[|x1] ? t1]; try contradiction. destruct Sd as [-> Sd]. destruct t1 as [|[|x2] ? t2]; try contradiction. destruct Sd as [-> Sd].
    destruct t2 as [|[|x3] ? t3]; try contradiction. destruct Sd as [-> Sd]; subst d'.
    pose proof (wf_tail _ _ _ Hw2) as Hw3. pose proof (wf_tail _ _ _ Hw3) as Hw4. pose proof (wf_tail _ _ _ Hw4) as Hw5.
    rewrite !p_S, p_0 by auto. cbn [bind].
    destruct (negb (ch_in iswordc (peek t3))) eqn:E3; [|exact Id]. exfalso. apply negb_true_iff in E3.
    destruct z as [|y1 z]; [cbn in Sp; subst m; discriminate He|]. cbn [spells] in Sp. destruct Sp as [<- Sp].
    destruct z as [|y2 z]; [cbn in Sp; subst m; discriminate He|]. cbn [spells] in Sp. destruct Sp as [<- Sp].
    destruct z as [|y3 z]; [cbn in Sp; subst m; discriminate He|]. cbn [spells] in Sp. destruct Sp as [<- Sp].
    apply (Hn (T "isnot") z); [cbn; auto|reflexivity|].
    destruct z as [|r2 z]; [exact Logic.I|]. cbn [spells] in Sp. destruct t3 as [|[|r'] ? ?]; try contradiction. destruct Sp as [-> _]. exact E3.
  - rewrite M. cbn [bind]. exact Id.
Qed.

(** The token at the start of the rest does not continue an expression. *)
Lemma rest_token w z k m : no_operator w z -> wf k -> spells z k m -> at_end m ->
  ch_in iswhite (peek k) = false /\ exists t d, get2 k = Ok (t, d) /\ forall op, (lev (negb (nothing w)) op (tk t) < 1)%nat.
Proof.
  intros H Wf Sp He. destruct H as [|r z H|z H|z H|z H|z H|z H|r z H Hz|r z H Hz].
  - cbn in Sp. subst m. split; [apply end_peek; auto|]. destruct k as [|[|r] ? ?]; [| |discriminate He]; do 2 eexists; (split; [reflexivity|]); intros; cbn; lia.
  - apply spells_head in Sp. destruct Sp as [p1 [t [-> Sp]]]. cbn [In] in H.
    repeat (destruct H as [<-|H]; [split; [reflexivity|]|]); try contradiction.
    all: try (do 2 eexists; split; [reflexivity|intros; cbn; lia]).
    + change (get2 (Cons (R (C "$")) p1 t)) with (let '(s2, c2) := read_word t in Ok (mkTok KEnv ([C "$"] ++ s2) (getpos (Cons (R (C "$")) p1 t)), c2)).
      destruct (read_word t). do 2 eexists. split; [reflexivity|intros; cbn; lia].
    + destruct t as [|[|x] p2 t]; do 2 eexists; (split; [reflexivity|intros; cbn; lia]).
    + change (get2 (Cons (R (C "#")) p1 t)) with (let* x := p_ 1 (Cons (R (C "#")) p1 t) in
        if ch_is x (C "{") then tok_fix KLitCOpen (T "#{") (Cons (R (C "#")) p1 t) else tok_fix KSharp (T "#") (Cons (R (C "#")) p1 t)).
      rewrite p_S, p_0 by auto. cbn [bind]. destruct (ch_is (peek t) (C "{")) eqn:E.
      * destr_ch E. do 2 eexists. split; [reflexivity|intros; cbn; lia].
      * do 2 eexists. split; [reflexivity|intros; cbn; lia].
  - apply spells_head in Sp. destruct Sp as [p1 [t [-> Sp]]]. split; [reflexivity|].
    pose proof (peek_spells _ _ _ _ Sp He H) as Hp. apply (peek_not _ (C "|")) in Hp; [|reflexivity].
    change (get2 (Cons (R (C "|")) p1 t)) with (let* x := p_ 1 (Cons (R (C "|")) p1 t) in
      if ch_is x (C "|") then tok_fix KOrOr (T "||") (Cons (R (C "|")) p1 t) else tok_fix KOr (T "|") (Cons (R (C "|")) p1 t)).
    rewrite p_S, p_0 by auto. cbn [bind]. rewrite Hp. do 2 eexists. split; [reflexivity|intros; cbn; lia].
  - apply spells_head in Sp. destruct Sp as [p1 [t [-> Sp]]]. split; [reflexivity|].
    pose proof (peek_spells _ _ _ _ Sp He H) as Hp. apply (peek_not _ (C "&")) in Hp; [|reflexivity].
    unfold get2. cbn [peek ch_of_cell]. rewrite (p_S 0) by auto. rewrite p_0.
    change (iswhite (C "&")) with false. change (isdigit (C "&")) with false. change (isnamec1 (C "&")) with false.
    change (C "&" =? C "|") with false. change (C "&" =? C "&") with true. cbn [bind]. cbv iota. rewrite Hp.
    destruct (ch_is (peek t) (C "g") || ch_is (peek t) (C "l")) eqn:E.
    + assert (exists r p1 t1, t = Cons (R r) p1 t1) as [r1 [p2 [t1 ->]]].
      { apply orb_true_iff in E. destruct E as [E|E]; apply ch_is_peek in E; destruct E as [? [? ->]]; eauto. }
      rewrite p_S, p_S, p_0; [|eapply wf_tail; eauto|auto]. cbn [bind]. destruct (getn _ _). destruct (read_word _).
      do 2 eexists. split; [reflexivity|intros; cbn; lia].
    + cbn [bind]. destruct (getn _ _). destruct (read_word _). do 2 eexists. split; [reflexivity|intros; cbn; lia].
  - apply spells_head in Sp. destruct Sp as [p1 [t [-> Sp]]]. split; [reflexivity|].
    pose proof (peek_spells _ _ _ _ Sp He H) as Hp. pose proof (peek_not _ (C "~") _ Hp eq_refl) as Hq. apply (peek_not _ (C "=")) in Hp; [|reflexivity].
    unfold get2. cbn [peek ch_of_cell]. rewrite (p_S 0) by auto. rewrite p_0.
    change (iswhite (C "=")) with false. change (isdigit (C "=")) with false. change (isnamec1 (C "=")) with false.
    change (C "=" =? C "|") with false. change (C "=" =? C "&") with false. change (C "=" =? C "=") with true. cbn [bind]. cbv iota. rewrite Hp, Hq.
    do 2 eexists. split; [reflexivity|intros; cbn; lia].
  - apply spells_head in Sp. destruct Sp as [p1 [t [-> Sp]]]. split; [reflexivity|].
    pose proof (peek_spells _ _ _ _ Sp He H) as Hp. pose proof (peek_not _ (C "~") _ Hp eq_refl) as Hq. apply (peek_not _ (C "=")) in Hp; [|reflexivity].
    unfold get2. cbn [peek ch_of_cell]. rewrite (p_S 0) by auto. rewrite p_0.
    change (iswhite (C "!")) with false. change (isdigit (C "!")) with false. change (isnamec1 (C "!")) with false.
    change (C "!" =? C "|") with false. change (C "!" =? C "&") with false. change (C "!" =? C "=") with false. change (C "!" =? C "!") with true.
    cbn [bind]. cbv iota. rewrite Hp, Hq. do 2 eexists. split; [reflexivity|intros; cbn; lia].
  - apply spells_head in Sp. destruct Sp as [p1 [t [-> Sp]]]. split; [reflexivity|].
    do 2 eexists. split; [reflexivity|]. intros. destruct w; [contradiction|cbn; lia].
  - apply spells_head in Sp. destruct Sp as [p1 [t [-> Sp]]].
    assert (W : iswhite r = false) by (unfold iswhite, isdigit, between in *; lia). split; [exact W|].
    destruct (digit_kind r p1 t Wf H) as [k [d [E K]]].
    { intros E. specialize (Hz E). pose proof (peek_spells _ _ _ _ Sp He Hz) as Hp. split; eapply peek_not; eauto. }
    exists k, d. split; [|intros op; rewrite K; cbn; lia]. unfold get2. cbn [peek ch_of_cell]. rewrite W, H. exact E.
  - apply spells_head in Sp. destruct Sp as [p1 [t [-> Sp]]].
    assert (W : iswhite r = false) by (unfold iswhite, isnamec1, iswordc1, isalpha, isupper, islower, between in *; lia). split; [exact W|].
    assert (D : isdigit r = false) by (unfold isdigit, isnamec1, iswordc1, isalpha, isupper, islower, between in *; lia).
    destruct (word_kind _ _ _ _ _ Wf Sp He Hz) as [k [d [E K]]].
    exists k, d. split; [|intros op; rewrite K; cbn; lia]. unfold get2. cbn [peek ch_of_cell]. rewrite W, D, H. exact E.
Qed.

Lemma rest_stop n w z k m : gap w -> no_operator w z -> follows n w z -> wf k -> spells (w ++ z) k m -> at_end m ->
  stop (nothing (w ++ z)) (rightmost n) 1 k.
Proof.
  intros Hw Hz Hf Wf Sp He. pose proof Sp as Sp0. apply spells_split in Sp0. destruct Sp0 as [d [Sw Sz]].
  pose proof (spells_wf _ _ _ Sw Wf) as Wd. destruct (rest_token w z d m Hz Wd Sz He) as [Hb [t [e [Ht Hl]]]].
  split; [|split].
  - intros E. destruct w; [|discriminate E]. destruct z; [|discriminate E]. cbn in Sp. subst m. exact He.
  - destruct w as [|x w].
    + cbn in Sw. subst d. destruct z as [|r z]; [cbn in Sz; subst m; destruct k as [|[|r] ? ?]; [reflexivity|reflexivity|discriminate He]|].
      apply spells_head in Sz. destruct Sz as [p1 [t1 [-> _]]]. destruct Hf as [Hf|Hf]; [congruence|]. cbn [head_not] in Hf.
      cbn [peek ch_of_cell fits]. rewrite Hf. reflexivity.
    + apply (gap_fits (rightmost n) (x :: w) z k m); auto. discriminate.
  - exists t, e. split; [unfold tget; rewrite (skip_gap w k d); auto|].
    replace (ch_in iswhite (peek k)) with (negb (nothing w)); [apply Hl|].
    destruct w as [|x w]; [cbn in Sw; subst d; symmetry; exact Hb|].
    destruct (gap_fits (rightmost n) (x :: w) z k m) as [_ ->]; auto. discriminate.
Qed.
