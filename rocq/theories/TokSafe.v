(** The tokenizer never panics and returns tokens of the text. *)
From Coq Require Import Lia ZifyBool ZifyNat ZifyN.
From Verif Require Import Base CharClass Reader Vnode Tokenizer Cursor Grammar Fault.

(** An outcome that is a value satisfying [P], or a ParseError elocated at a place of the
    text [B] whose message is true of it; neither another panic nor the model's fuel
    exhaustion. *)
Definition elocated (B : cursor) (D : bool -> cursor -> Prop) (e : parse_error) : Prop :=
  exists s, sfx s B /\ e = Err_ (e_msg e) (getpos s) /\ expr_fault B D s (e_msg e).
Definition esafe {A} (B : cursor) (D : bool -> cursor -> Prop) (P : A -> Prop) (o : outcome A) : Prop :=
  match o with
  | Ok a => P a
  | PErr e => elocated B D e
  | Panic _ | OutOfFuel => False
  end.

Lemma elocated_here {D} B s msg : sfx s B -> expr_fault B D s msg -> elocated B D (Err_ msg (getpos s)).
Proof. intros H. exists s. split; auto. Qed.

Lemma esafe_raise {A} {D} B (P : A -> Prop) msg s : sfx s B -> expr_fault B D s msg -> esafe B D P (raise msg (getpos s)).
Proof. intros H. apply elocated_here; auto. Qed.

Lemma esafe_bind {A A'} {D} B (P : A -> Prop) (Q : A' -> Prop) m k :
  esafe B D P m -> (forall a, P a -> esafe B D Q (k a)) -> esafe B D Q (bind m k).
Proof. destruct m; cbn; auto; contradiction. Qed.

Lemma esafe_imp {A} {D} B (P Q : A -> Prop) o :
  (forall a, P a -> Q a) -> esafe B D P o -> esafe B D Q o.
Proof. destruct o; cbn; auto. Qed.

Lemma esafe_ok {A} {D} B (P : A -> Prop) a : P a -> esafe B D P (Ok a).
Proof. auto. Qed.

(** The same for a loop: what its errors say, in terms of the place where it starts. *)
Definition ends {A} (P : A -> Prop) (Q : cursor -> text -> Prop) (o : outcome A) : Prop :=
  match o with
  | Ok a => P a
  | PErr e => exists s, e = Err_ (e_msg e) (getpos s) /\ Q s (e_msg e)
  | Panic _ | OutOfFuel => False
  end.

Lemma ends_bind {A A'} (P : A -> Prop) (P' : A' -> Prop) (Q Q' : cursor -> text -> Prop) m k :
  ends P Q m -> (forall s x, Q s x -> Q' s x) -> (forall a, P a -> ends P' Q' (k a)) -> ends P' Q' (bind m k).
Proof. destruct m; cbn; auto; try contradiction. intros [s [E H]] HQ _. eauto. Qed.

Lemma ends_esafe {A} {D} B (P P' : A -> Prop) (Q : cursor -> text -> Prop) o : ends P Q o -> (forall a, P a -> P' a) ->
  (forall s x, Q s x -> sfx s B /\ expr_fault B D s x) -> esafe B D P' o.
Proof. destruct o; cbn; auto. intros [s [E H]] _ HQ. destruct (HQ _ _ H). exists s. auto. Qed.

(** [token_at] without the leading blanks. *)
Definition tok_here (d : cursor) (t : token) (c' : cursor) : Prop :=
  tp t = getpos d /\
  match tk t with
  | KEof => is_eof d = true /\ c' = d /\ tv t = T "<EOF>"
  | KEol => (exists p, d = Cons EOL p c') /\ tv t = T "<EOL>"
  | k => spells (tv t) d c' /\ lexeme k (tv t)
  end.

Ltac esafe_b :=
  match goal with
  | |- esafe _ _ _ (bind (Ok _) _) => cbn [bind]
  | |- esafe _ _ _ (bind _ _) => eapply esafe_bind
  end.

Lemma tok_cmp_here {D} B o s c c' :
  wf c -> spells s c c' -> s = cmp_symbol o ->
  esafe B D (fun '(t, c1) => tok_here c t c1) (tok_cmp o (length s) s c).
Proof.
  intros Hw Hs Ho. unfold tok_cmp. rewrite (p_spells (length s) s c c') by auto. cbn [bind].
  destruct (ch_is (peek c') (C "?")) eqn:E1; [|destruct (ch_is (peek c') (C "#")) eqn:E2].
  - apply ch_is_peek in E1. destruct E1 as [p [t ->]].
    assert (Hs2 : spells (s ++ T "?") c t).
    { eapply spells_app; [exact Hs|]. cbn. auto. }
    rewrite (seek_spells (S (length s)) (s ++ T "?") c t) by (auto; rewrite app_length; cbn; lia).
    cbn [bind]. repeat split; cbn [tk tv tp]; auto. cbn. subst; auto.
  - apply ch_is_peek in E2. destruct E2 as [p [t ->]].
    assert (Hs2 : spells (s ++ T "#") c t).
    { eapply spells_app; [exact Hs|]. cbn. auto. }
    rewrite (seek_spells (S (length s)) (s ++ T "#") c t) by (auto; rewrite app_length; cbn; lia).
    cbn [bind]. repeat split; cbn [tk tv tp]; auto. cbn. subst; auto.
  - rewrite (seek_spells (length s) s c c') by auto.
    cbn [bind]. repeat split; cbn [tk tv tp]; auto. cbn. subst; rewrite app_nil_r; auto.
Qed.

Lemma tok_fix_here {D} B k s c c' :
  spells s c c' -> spelling k = Some s ->
  esafe B D (fun '(t, c1) => tok_here c t c1) (tok_fix k s c).
Proof.
  intros Hs Hk. unfold tok_fix. rewrite (seek_spells (length s) s c c') by auto.
  cbn [bind esafe]. repeat split; cbn [tk tv tp]; auto.
  assert (H : spells s c c' /\ lexeme k s) by (split; [auto|unfold lexeme; rewrite Hk; auto]).
  destruct k; auto; discriminate.
Qed.

Lemma read_some f c s c' : read_while f c = (s, c') -> ch_in f (peek c) = true -> some_of f s.
Proof.
  intros H H1. apply ch_in_peek in H1. destruct H1 as [r [p [t [-> Hr]]]].
  cbn [read_while] in H. rewrite Hr in H. destruct (read_while f t) eqn:E.
  apply read_while_spells in E. destruct E as [_ [E _]].
  inversion H; subst. split. discriminate. cbn. rewrite Hr; auto.
Qed.

Lemma some_cons (f : N -> bool) r s : f r = true -> forallb f s = true -> some_of f (r :: s).
Proof. intros; split. discriminate. cbn; rewrite H, H0; auto. Qed.

Ltac destr_ch H :=
  let p := fresh "p" in let t := fresh "t" in
  apply ch_is_peek in H; destruct H as [p [t ->]].

Lemma get2_number_here {D} B c :
  wf c -> ch_in isdigit (peek c) = true ->
  esafe B D (fun '(t, c1) => tok_here c t c1) (get2_number c).
Proof.
  intros Hw Hd. unfold get2_number, read_digit.
  destruct (read_while isdigit c) as [s c1] eqn:E1.
  pose proof (read_some _ _ _ _ E1 Hd) as Hs1.
  apply read_while_spells in E1. destruct E1 as [Sp1 _].
  assert (Hw1 : wf c1) by (eapply wf_sfx; [eapply spells_sfx|]; eauto).
  rewrite p_0. cbn [bind].
  assert (Hnofrac : esafe B D (fun '(t, c1) => tok_here c t c1) (Ok (mkTok KNumber s (getpos c), c1))).
  { cbn. repeat split; auto. constructor; auto. }
  destruct (ch_is (peek c1) (C ".")) eqn:E2; [|cbn [bind]; apply Hnofrac].
  destr_ch E2. rewrite p_S, p_0 by auto. cbn [bind].
  destruct (ch_in isdigit (peek t)) eqn:E3; [|apply Hnofrac].
  cbn [getn]. destruct (read_while isdigit t) as [s3 c3] eqn:E4.
  pose proof (read_some _ _ _ _ E4 E3) as Hs3.
  apply read_while_spells in E4. destruct E4 as [Sp3 _].
  apply wf_tail in Hw1.
  assert (Hw3 : wf c3) by (eapply wf_sfx; [eapply spells_sfx|]; eauto).
  rewrite p_0. cbn [bind].
  assert (Sp13 : spells (s ++ T "." ++ s3) c c3).
  { eapply spells_app; eauto. cbn. auto. }
  assert (Hnoexp : esafe B D (fun '(t, c1) => tok_here c t c1)
                     (Ok (mkTok KNumber (s ++ T "." ++ s3) (getpos c), c3))).
  { cbn [esafe tok_here tk tv tp]. repeat split; auto. apply num_frac; auto. }
  destruct (ch_is (peek c3) (C "E") || ch_is (peek c3) (C "e")) eqn:E5;
    [|cbn [bind]; apply Hnoexp].
  assert (He : exists e p5 t5, c3 = Cons (R e) p5 t5 /\ In e [C "e"; C "E"]).
  { apply orb_true_iff in E5. destruct E5 as [E5|E5]; destr_ch E5; cbn; eauto 10. }
  destruct He as [e [p5 [t5 [-> He]]]]. clear E5.
  rewrite p_S, p_0 by auto. cbn [bind].
  destruct (ch_in isdigit (peek t5)) eqn:E6.
  - cbn [bind]. apply ch_in_peek in E6. destruct E6 as [d [p6 [t6 [-> Hd6]]]]. cbn [getn].
    destruct (read_while isdigit t6) as [s5 c5] eqn:E7.
    apply read_while_spells in E7. destruct E7 as [Sp5 [Hs5 _]].
    cbn [esafe]. cbn [tok_here tk tv tp]. split; auto.
    replace (s ++ [46] ++ s3 ++ [e; d] ++ s5) with (s ++ T "." ++ s3 ++ e :: [] ++ (d :: s5))
      by reflexivity.
    split.
    + replace (s ++ T "." ++ s3 ++ e :: [] ++ d :: s5)
        with ((s ++ T "." ++ s3) ++ [e; d] ++ s5) by (rewrite <- !app_assoc; reflexivity).
      eapply spells_app; eauto. cbn. auto.
    + apply num_exp; auto. cbn; auto. apply some_cons; auto.
  - destruct (ch_is (peek t5) (C "-") || ch_is (peek t5) (C "+")) eqn:E7;
      [|cbn [bind]; apply Hnoexp].
    assert (Hg : exists g p6 t6, t5 = Cons (R g) p6 t6 /\ In [g] [[]; T "-"; T "+"]).
    { apply orb_true_iff in E7. destruct E7 as [E7|E7]; destr_ch E7; cbn; eauto 10. }
    destruct Hg as [g [p6 [t6 [-> Hg]]]]. clear E7.
    pose proof (wf_tail _ _ _ Hw3) as Hw4.
    rewrite p_S, p_S, p_0 by auto. cbn [bind].
    destruct (ch_in isdigit (peek t6)) eqn:E8; [|apply Hnoexp].
    cbn [getn]. destruct (read_while isdigit t6) as [s5 c5] eqn:E9.
    pose proof (read_some _ _ _ _ E9 E8) as Hs5.
    apply read_while_spells in E9. destruct E9 as [Sp5 [_ _]].
    cbn [esafe]. cbn [tok_here tk tv tp]. split; auto.
    replace (s ++ [46] ++ s3 ++ [e; g] ++ s5) with (s ++ T "." ++ s3 ++ e :: [g] ++ s5)
      by reflexivity.
    split.
    + replace (s ++ T "." ++ s3 ++ e :: [g] ++ s5)
        with ((s ++ T "." ++ s3) ++ [e; g] ++ s5) by (rewrite <- !app_assoc; reflexivity).
      eapply spells_app; eauto. cbn. auto.
    + apply num_exp; auto.
Qed.

Definition blob_fault (c s : cursor) (m : text) : Prop :=
  exists w a b c', spells w c s /\ blob_text w /\ spells [a; b] s c' /\ isxdigit a = true /\ isxdigit b = false /\
    m = T "E973: Blob literal should have an even number of hex characters:" ++ [a; b].

Lemma read_blob_ends : forall n c, (clen c <= n)%nat ->
  ends (fun '(s, c') => spells s c c' /\ blob_text s) (blob_fault c) (read_blob c).
Proof.
  induction n as [|n IH]; intros c Hn.
  - destruct c; cbn [clen] in Hn; [|lia]. cbn. split; constructor.
  - destruct c as [p0|[|a] p0 t]; cbn [read_blob]; try (cbn; split; constructor; fail).
    destruct t as [p1|[|b] p1 t2]; try (cbn; split; constructor; fail).
    cbn [clen] in Hn.
    destruct (isxdigit a && isxdigit b) eqn:E1; [|destruct ((a =? C ".") && isxdigit b) eqn:E2].
    + apply andb_true_iff in E1. destruct E1. eapply ends_bind; [apply (IH t2); lia| |].
      * intros s x [w [a' [b' [c' [Sp [Hw H1]]]]]]. exists (a :: b :: w), a', b', c'. split; [cbn; auto|].
        split; [constructor|]; auto.
      * intros [s c'] [H1 H2]. cbn [ends spells]. repeat split; auto. constructor; auto.
    + apply andb_true_iff in E2. destruct E2 as [E2 Hx]. apply N.eqb_eq in E2. subst a.
      assert (Hhd : forall s c', spells s (Cons (R b) p1 t2) c' -> hd_error s <> Some (C ".")).
      { intros [|x s] c' H1; [discriminate|]. cbn [spells] in H1. destruct H1 as [<- _]. cbn [hd_error].
        intros [= ->]. discriminate. }
      eapply ends_bind; [apply (IH (Cons (R b) p1 t2)); cbn [clen]; lia| |].
      * intros s x [w [a' [b' [c' [Sp [Hw H1]]]]]]. exists (C "." :: w), a', b', c'. split; [cbn; auto|].
        split; [apply blob_dot; eauto|auto].
      * intros [s c'] [H1 H2]. cbn [ends spells]. split; auto. apply blob_dot; eauto.
    + destruct (isxdigit a && negb (isxdigit b)) eqn:E3.
      * apply andb_true_iff in E3. destruct E3 as [E3 E4]. apply negb_true_iff in E4.
        exists (Cons (R a) p0 (Cons (R b) p1 t2)). split; auto. exists [], a, b, t2. cbn [spells e_msg].
        repeat split; auto. constructor.
      * cbn. split; constructor.
Qed.

Lemma get2_digit_here {D} B r p t :
  let c := Cons (R r) p t in wf c -> sfx c B -> isdigit r = true ->
  esafe B D (fun '(t, c1) => tok_here c t c1) (get2_digit r c).
Proof.
  cbv zeta. intros Hw HB Hd. unfold get2_digit.
  assert (Hnum : esafe B D (fun '(tk, c1) => tok_here (Cons (R r) p t) tk c1)
                   (get2_number (Cons (R r) p t))).
  { apply get2_number_here; auto. }
  destruct (r =? C "0") eqn:E0; [|apply Hnum]. apply N.eqb_eq in E0. subst r.
  rewrite p_S, p_0 by auto. cbn [bind].
  destruct (ch_is (peek t) (C "X") || ch_is (peek t) (C "x")) eqn:E1;
  [|destruct (ch_is (peek t) (C "B") || ch_is (peek t) (C "b")) eqn:E2;
  [|destruct (ch_is (peek t) (C "Z") || ch_is (peek t) (C "z")) eqn:E3; [|apply Hnum]]].
  - assert (Hx : exists x px tx, t = Cons (R x) px tx /\ In x [C "x"; C "X"]).
    { apply orb_true_iff in E1. destruct E1 as [E|E]; destr_ch E; cbn; eauto 10. }
    destruct Hx as [x [px [tx [-> Hx]]]]. rewrite p_S, p_S, p_0 by (auto; eapply wf_tail; eauto).
    cbn [bind]. destruct (ch_in isxdigit (peek tx)) eqn:E4; [|apply Hnum].
    apply ch_in_peek in E4. destruct E4 as [d [pd [td [-> Hd4]]]]. cbn [getn].
    unfold read_xdigit. destruct (read_while isxdigit td) as [s2 c2] eqn:E5.
    apply read_while_spells in E5. destruct E5 as [Sp [Hs _]].
    cbn [esafe tok_here tk tv tp]. split; auto. split. cbn; auto.
    apply num_hex; auto. apply some_cons; auto.
  - assert (Hx : exists x px tx, t = Cons (R x) px tx /\ In x [C "b"; C "B"]).
    { apply orb_true_iff in E2. destruct E2 as [E|E]; destr_ch E; cbn; eauto 10. }
    destruct Hx as [x [px [tx [-> Hx]]]]. rewrite p_S, p_S, p_0 by (auto; eapply wf_tail; eauto).
    cbn [bind]. destruct (ch_is (peek tx) (C "0") || ch_is (peek tx) (C "1")) eqn:E4; [|apply Hnum].
    assert (Hy : exists d pd td, tx = Cons (R d) pd td /\ isbdigit d = true).
    { apply orb_true_iff in E4. destruct E4 as [E|E]; destr_ch E; eauto 10. }
    destruct Hy as [d [pd [td [-> Hd4]]]]. cbn [getn].
    unfold read_bdigit. destruct (read_while _ td) as [s2 c2] eqn:E5.
    apply read_while_spells in E5. destruct E5 as [Sp [Hs _]].
    cbn [esafe tok_here tk tv tp]. split; auto. split. cbn; auto.
    apply num_bin; auto. apply some_cons; auto.
  - assert (Hx : exists x px tx, t = Cons (R x) px tx /\ In x [C "z"; C "Z"]).
    { apply orb_true_iff in E3. destruct E3 as [E|E]; destr_ch E; cbn; eauto 10. }
    destruct Hx as [x [px [tx [-> Hx]]]]. rewrite p_S, p_S, p_0 by (auto; eapply wf_tail; eauto).
    cbn [bind]. destruct (ch_is (peek tx) (C ".")) eqn:Edot; cbn [negb]; [apply Hnum|].
    cbn [getn]. eapply (esafe_bind _ (fun '(s, c') => spells s tx c' /\ blob_text s)).
    { eapply ends_esafe; [apply (read_blob_ends (clen tx)); auto|auto|].
      intros s m [w [a [b [c' [Sp [Hbt [Sp2 [Ha [Hb ->]]]]]]]]]. split.
      - eapply sfx_trans; [eapply spells_sfx; eauto|]. do 2 eapply sfx_tail; eauto.
      - apply (ef_blob B D s (Cons (R (C "0")) p (Cons (R x) px tx)) x w a b c'); auto. cbn [spells]. auto. }
    intros [s c'] [Sp Hb]. cbn [esafe tok_here tk tv tp]. split; auto. split. cbn; auto.
    exists x, s. repeat split; auto. destruct s as [|y s]; [discriminate|].
    cbn [spells] in Sp. destruct tx as [|[|y'] py ty]; try contradiction. destruct Sp as [-> _].
    cbn [hd_error]. intros [= ->]. discriminate.
Qed.

Lemma isnamec1_c r : isnamec1 r = true -> isnamec r = true.
Proof.
  unfold isnamec1, isnamec, iswordc1, iswordc, isalnum. intros H.
  destruct (isdigit r); auto. cbn. rewrite H; auto.
Qed.

Lemma get2_ident_here {D} B r p t :
  isnamec1 r = true ->
  esafe B D (fun '(tk, c1) => tok_here (Cons (R r) p t) tk c1) (get2_ident (Cons (R r) p t)).
Proof.
  intros H. unfold get2_ident, read_name. cbn [read_while]. rewrite (isnamec1_c _ H).
  destruct (read_while isnamec t) as [s c'] eqn:E. apply read_while_spells in E.
  destruct E as [Sp [Hs _]]. cbn [esafe tok_here tk tv tp]. split; auto. split. cbn; auto.
  exists r, s. auto.
Qed.

Lemma p_match_spells : forall s k c d, wf d -> (forall j, p_ (k + j) c = p_ j d) ->
  p_match k s c = Ok true /\ (exists d', spells s d d') \/ p_match k s c = Ok false.
Proof.
  induction s as [|r s IH]; intros k c d Hw Hp; cbn [p_match].
  - left. split; auto. exists d. reflexivity.
  - specialize (Hp O) as H0. rewrite Nat.add_0_r, p_0 in H0. rewrite H0. cbn [bind].
    destruct (ch_is (peek d) r) eqn:E; auto.
    destr_ch E. destruct (IH (S k) c t) as [[H1 [d' H2]]|H1].
    + eapply wf_tail; eauto.
    + intros j. replace (S k + j)%nat with (k + S j)%nat by lia. rewrite Hp. apply p_S; auto.
    + left. split; auto. exists d'. cbn. auto.
    + auto.
Qed.

Lemma get2_word_here {D} B r p t :
  let c := Cons (R r) p t in wf c -> isnamec1 r = true ->
  esafe B D (fun '(tk, c1) => tok_here c tk c1) (get2_word r c).
Proof.
  cbv zeta. intros Hw Hr. unfold get2_word.
  pose proof (get2_ident_here (D := D) B r p t Hr) as Hid.
  destruct (r =? C "i") eqn:E0; [|apply Hid]. apply N.eqb_eq in E0. subst r.
  rewrite p_S, p_0 by auto. cbn [bind].
  destruct (ch_is (peek t) (C "s")) eqn:E1; [|apply Hid]. destr_ch E1.
  pose proof (wf_tail _ _ _ Hw) as Hw1.
  rewrite p_S, p_S, p_0 by auto. cbn [bind].
  destruct (negb (ch_in iswordc (peek t0))).
  - apply (tok_cmp_here B OIs (T "is") _ t0); [auto | cbn; auto | reflexivity].
  - destruct (p_match_spells (T "not") 2 (Cons (R (C "i")) p (Cons (R (C "s")) p0 t0)) t0)
      as [[H1 [d' H2]]|H1].
    + eapply wf_tail; eauto.
    + intros j. rewrite Nat.add_comm, Nat.add_comm. cbn [Nat.add]. rewrite p_S, p_S; auto.
    + rewrite H1. cbn [bind].
      rewrite (p_spells 5 (T "isnot") _ d') by (auto; cbn [spells]; auto). cbn [bind].
      destruct (negb (ch_in iswordc (peek d'))).
      * apply (tok_cmp_here B OIsNot (T "isnot") _ d'); [auto | cbn [spells]; auto | reflexivity].
      * apply Hid.
    + rewrite H1. cbn [bind]. apply Hid.
Qed.

Ltac fix_tok := eapply tok_fix_here; [cbn [spells]; eauto | reflexivity].
Ltac cmp_tok o s := eapply (tok_cmp_here _ o s); [assumption | cbn [spells]; eauto | reflexivity].
Ltac eqb_subst H := apply N.eqb_eq in H; subst.

Lemma get2_here {D} B c : wf c -> sfx c B -> no_blank c ->
  esafe B D (fun '(t, c1) => tok_here c t c1) (get2 c).
Proof.
  intros Hw HB Hnb. unfold get2. destruct c as [p0|[|r] p t]; cbn [peek ch_of_cell].
  - unfold tok_here. cbn. auto.
  - unfold tok_here. cbn. eauto.
  - destruct (iswhite r) eqn:Ew.
    { specialize (Hnb r eq_refl). congruence. }
    clear Hnb. destruct (isdigit r) eqn:Ed. { apply get2_digit_here; auto. }
    destruct (isnamec1 r) eqn:En. { apply get2_word_here; auto. }
    destruct (r =? C "|") eqn:X1; [eqb_subst X1|].
    { rewrite p_S, p_0 by auto. cbn [bind]. destruct (ch_is (peek t) (C "|")) eqn:E1.
      destr_ch E1. fix_tok. fix_tok. }
    destruct (r =? C "&") eqn:X2; [eqb_subst X2|].
    { rewrite p_S, p_0 by auto. cbn [bind]. destruct (ch_is (peek t) (C "&")) eqn:E1.
      destr_ch E1. fix_tok.
      assert (H1 : esafe B D (fun '(tk, c1) => tok_here (Cons (R (C "&")) p t) tk c1)
        (let '(s, c1) := getn 1 (Cons (R (C "&")) p t) in
         let '(s2, c2) := read_word c1 in
         Ok (mkTok KOption (s ++ s2) (getpos (Cons (R (C "&")) p t)), c2))).
      { cbn [getn]. unfold read_word. destruct (read_while iswordc t) as [s2 c2] eqn:E2.
        apply read_while_spells in E2. destruct E2 as [Sp [Hs _]].
        cbn [esafe tok_here tk tv tp]. split; auto. split; [cbn; auto|].
        exists [], s2. cbn; auto. }
      destruct (ch_is (peek t) (C "g") || ch_is (peek t) (C "l")) eqn:E2; [|cbn [bind]; apply H1].
      assert (Hx : exists x px tx, t = Cons (R x) px tx /\ In [x; C ":"] [[]; T "g:"; T "l:"]).
      { apply orb_true_iff in E2. destruct E2 as [E|E]; destr_ch E; cbn; eauto 10. }
      destruct Hx as [x [px [tx [-> Hx]]]]. rewrite p_S, p_S, p_0 by (auto; eapply wf_tail; eauto).
      cbn [bind]. destruct (ch_is (peek tx) (C ":")) eqn:E3; [|apply H1].
      destr_ch E3. cbn [getn].
      unfold read_word. destruct (read_while iswordc t) as [s2 c2] eqn:E4.
      apply read_while_spells in E4. destruct E4 as [Sp [Hs _]].
      cbn [esafe tok_here tk tv tp]. split; auto. split; [cbn; auto|].
      exists [x; C ":"], s2. auto. }
    destruct (r =? C "=") eqn:X3; [eqb_subst X3|].
    { rewrite p_S, p_0 by auto. cbn [bind].
      destruct (ch_is (peek t) (C "=")) eqn:E1; [destr_ch E1; cmp_tok OEq (T "==")|].
      destruct (ch_is (peek t) (C "~")) eqn:E2; [destr_ch E2; cmp_tok OMatch (T "=~")|].
      fix_tok. }
    destruct (r =? C "!") eqn:X4; [eqb_subst X4|].
    { rewrite p_S, p_0 by auto. cbn [bind].
      destruct (ch_is (peek t) (C "=")) eqn:E1; [destr_ch E1; cmp_tok ONeq (T "!=")|].
      destruct (ch_is (peek t) (C "~")) eqn:E2; [destr_ch E2; cmp_tok ONoMatch (T "!~")|].
      fix_tok. }
    destruct (r =? C ">") eqn:X5; [eqb_subst X5|].
    { rewrite p_S, p_0 by auto. cbn [bind].
      destruct (ch_is (peek t) (C "=")) eqn:E1; [destr_ch E1; cmp_tok OGtEq (T ">=")|].
      cmp_tok OGt (T ">"). }
    destruct (r =? C "<") eqn:X6; [eqb_subst X6|].
    { rewrite p_S, p_0 by auto. cbn [bind].
      destruct (ch_is (peek t) (C "=")) eqn:E1; [destr_ch E1; cmp_tok OLtEq (T "<=")|].
      cmp_tok OLt (T "<"). }
    destruct (r =? C "+") eqn:X7; [eqb_subst X7; fix_tok|].
    destruct (r =? C "-") eqn:X8; [eqb_subst X8|].
    { rewrite p_S, p_0 by auto. cbn [bind]. destruct (ch_is (peek t) (C ">")) eqn:E1.
      destr_ch E1. fix_tok. fix_tok. }
    destruct (r =? C ".") eqn:X9; [eqb_subst X9|].
    { rewrite p_S, p_0 by auto. cbn [bind]. destruct (ch_is (peek t) (C ".")) eqn:E1.
      - destr_ch E1. rewrite p_S, p_S, p_0 by (auto; eapply wf_tail; eauto). cbn [bind].
        destruct (ch_is (peek t0) (C ".")) eqn:E2; [destr_ch E2|]; fix_tok.
      - fix_tok. }
    destruct (r =? C "*") eqn:X10; [eqb_subst X10; fix_tok|].
    destruct (r =? C "/") eqn:X11; [eqb_subst X11; fix_tok|].
    destruct (r =? C "%") eqn:X12; [eqb_subst X12; fix_tok|].
    destruct (r =? C "?") eqn:X13; [eqb_subst X13; fix_tok|].
    destruct (r =? C ":") eqn:X14; [eqb_subst X14; fix_tok|].
    destruct (r =? C "#") eqn:X15; [eqb_subst X15|].
    { rewrite p_S, p_0 by auto. cbn [bind]. destruct (ch_is (peek t) (C "{")) eqn:E1.
      destr_ch E1. fix_tok. fix_tok. }
    destruct (r =? C "(") eqn:X16; [eqb_subst X16; fix_tok|].
    destruct (r =? C ")") eqn:X17; [eqb_subst X17; fix_tok|].
    destruct (r =? C "[") eqn:X18; [eqb_subst X18; fix_tok|].
    destruct (r =? C "]") eqn:X19; [eqb_subst X19; fix_tok|].
    destruct (r =? C "{") eqn:X20; [eqb_subst X20; fix_tok|].
    destruct (r =? C "}") eqn:X21; [eqb_subst X21; fix_tok|].
    destruct (r =? C ",") eqn:X22; [eqb_subst X22; fix_tok|].
    destruct (r =? C "'") eqn:X23; [eqb_subst X23; fix_tok|].
    destruct (r =? C """") eqn:X24; [eqb_subst X24; fix_tok|].
    destruct (r =? C "$") eqn:X25; [eqb_subst X25|].
    { cbn [getn]. unfold read_word. destruct (read_while iswordc t) as [s2 c2] eqn:E2.
      apply read_while_spells in E2. destruct E2 as [Sp [Hs _]].
      cbn [esafe tok_here tk tv tp]. split; auto. split; [cbn; auto|]. exists s2. auto. }
    destruct (r =? C "@") eqn:X26; [eqb_subst X26|].
    { destruct (getn 2 (Cons (R (C "@")) p t)) as [s c1] eqn:E.
      assert (Hs : exists w, (length w <= 1)%nat /\ s = C "@" :: w).
      { cbn [getn] in E. destruct t as [|[|r2] p2 t2]; inversion E; subst;
          [exists []|exists []|exists [r2]]; cbn; auto. }
      apply getn_spells in E. cbn [esafe tok_here tk tv tp]. split; [auto|split; [exact E|exact Hs]]. }
    destruct (r =? C ";") eqn:X27; [eqb_subst X27; fix_tok|].
    destruct (r =? C "`") eqn:X28; [eqb_subst X28; fix_tok|].
    apply (esafe_raise B _ _ (Cons (R r) p t)); auto. apply ef_char; auto.
    unfold starts_token. rewrite Ed, En. cbn [orb].
    cbn -[N.eqb] in *. repeat match goal with H : (r =? _) = false |- _ => rewrite H; clear H end. reflexivity.
Qed.

Lemma blank_skip c : blank c (skip_white c).
Proof. apply skip_while_spells. Qed.

Lemma blank_sfx c d : blank c d -> sfx d c.
Proof. intros [ws [H _]]. eapply spells_sfx; eauto. Qed.

Lemma blank_fun c d : blank c d -> d = skip_white c.
Proof.
  intros [ws [H [Hw Hn]]]. unfold skip_white, skip_while. revert c H.
  induction ws as [|r ws IH]; intros c H.
  - cbn in H. subst. destruct d as [|[|r] p t]; try reflexivity.
    cbn [read_while]. rewrite (Hn r eq_refl). reflexivity.
  - cbn [forallb] in Hw. apply andb_true_iff in Hw. destruct Hw as [Hr Hw].
    cbn [spells] in H. destruct c as [|[|r'] p t]; try contradiction. destruct H as [-> H].
    cbn [read_while]. rewrite Hr. specialize (IH Hw _ H).
    destruct (read_while iswhite t). exact IH.
Qed.

Lemma tget_esafe {D} B c : wf B -> sfx c B -> esafe B D (fun '(t, c') => token_at c t c') (tget c).
Proof.
  intros Hw HB. pose proof (blank_skip c) as Hb. pose proof (blank_sfx _ _ Hb) as Hs.
  assert (Hs2 : sfx (skip_white c) B) by (eapply sfx_trans; eauto).
  unfold tget. eapply esafe_imp; [|apply get2_here; auto].
  - intros [t c'] H. exists (skip_white c). split; auto.
  - eapply wf_sfx; eauto.
  - destruct Hb as [ws [_ [_ H]]]. exact H.
Qed.

Lemma lexeme_nonempty k s : lexeme k s -> s <> [].
Proof.
  unfold lexeme. intros H ->. destruct k; cbn in H; try discriminate; try contradiction;
    try (destruct o, m; discriminate).
  - inversion H; subst. destruct H0; auto.
    all: try (destruct a; discriminate).
  - destruct H as [? [? [_ [_ ?]]]]; discriminate.
  - destruct H as [? [? [? _]]]; discriminate.
  - destruct H as [? [_ ?]]; discriminate.
  - destruct H as [? [_ ?]]; discriminate.
  - destruct H as [? [? [_ [_ [_ ?]]]]]; discriminate.
Qed.

Lemma token_sfx c t c' : token_at c t c' -> sfx c' c.
Proof.
  intros [d [Hb [_ H]]]. apply blank_sfx in Hb. eapply sfx_trans; [|exact Hb].
  destruct (tk t); try (destruct H; eapply spells_sfx; eauto; fail).
  - destruct H as [_ [-> _]]. constructor.
  - destruct H as [[p ->] _]. constructor; constructor.
Qed.

Lemma token_clen c t c' : token_at c t c' -> tk t <> KEof -> (clen c' < clen c)%nat.
Proof.
  intros [d [Hb [_ H]]] Hk. apply blank_sfx in Hb. apply sfx_clen in Hb.
  destruct (tk t); try congruence;
   try (destruct H as [H H0]; apply lexeme_nonempty in H0; apply spells_clen in H;
        destruct (tv t); [congruence|cbn [length] in H; lia]).
  destruct H as [[p ->] _]. cbn [clen] in Hb. lia.
Qed.

Lemma token_pos c t c' : token_at c t c' -> exists d, sfx d c /\ tp t = getpos d.
Proof. intros [d [Hb [H _]]]. exists d. split; auto. apply blank_sfx; auto. Qed.

Lemma tpeek_esafe {D} B c : wf B -> sfx c B -> esafe B D (fun t => exists c', token_at c t c') (tpeek c).
Proof.
  intros. unfold tpeek. esafe_b. apply tget_esafe; auto. intros [t c'] Ht. cbn. eauto.
Qed.

(** tget yields the only token at a place, provided the place behind it is fixed. *)
Lemma tok_eqb_eq a b : tok_eqb a b = true -> a = b.
Proof.
  unfold tok_eqb. intros H. apply N.eqb_eq in H.
  destruct a, b; try reflexivity; try (cbn in H; discriminate H);
  repeat match goal with o : cmpop |- _ => destruct o | m : cmode |- _ => destruct m end;
  try reflexivity; cbn in H; discriminate H.
Qed.
Lemma tok_eqb_refl a : tok_eqb a a = true.
Proof. apply N.eqb_refl. Qed.

(** * Strings and literal keys *)

Definition sq_fault (c s : cursor) (m : text) : Prop :=
  exists b, spells b c s /\ sq_body b /\ at_end s /\ m = T "unexpected EOL".

Lemma sstring_ends : forall n c, (clen c <= n)%nat ->
  ends (fun '(s, c') => sq_body s /\ spells (s ++ T "'") c c') (sq_fault c) (sstring_loop c).
Proof.
  assert (H0 : forall c m, at_end c -> m = T "unexpected EOL" -> sq_fault c c m).
  { intros c m H1 ->. exists []. repeat split; auto. constructor. }
  induction n as [|n IH]; intros c Hn.
  - destruct c; cbn [clen] in Hn; [|lia]. exists (Eof p). split; [reflexivity|]. apply H0; reflexivity.
  - destruct c as [p0|[|r] p0 t]; cbn [sstring_loop].
    + exists (Eof p0). split; [reflexivity|]. apply H0; reflexivity.
    + exists (Cons EOL p0 t). split; [reflexivity|]. apply H0; reflexivity.
    + cbn [clen] in Hn. destruct (r =? C "'") eqn:E.
      * apply N.eqb_eq in E. subst. destruct t as [|[|r2] p2 t2]; try (cbn; split; [constructor|auto]; fail).
        destruct (r2 =? C "'") eqn:E2; [|cbn; split; [constructor|auto]].
        apply N.eqb_eq in E2. subst. eapply ends_bind; [apply (IH t2); cbn [clen] in *; lia| |].
        -- intros s x [b [Sp [Hb H1]]]. exists (C "'" :: C "'" :: b). split; [cbn; auto|]. split; auto.
           apply sq_quote; auto.
        -- intros [s c'] [H1 H2]. cbn [ends]. split; [apply sq_quote; auto|]. cbn. auto.
      * apply N.eqb_neq in E. eapply ends_bind; [apply (IH t); lia| |].
        -- intros s x [b [Sp [Hb H1]]]. exists (r :: b). split; [cbn; auto|]. split; auto. apply sq_char; auto.
        -- intros [s c'] [H1 H2]. cbn [ends]. split; [apply sq_char; auto|]. cbn. auto.
Qed.

Definition dq_fault (c s : cursor) (m : text) : Prop :=
  exists b, dq_body b /\ at_end s /\
    (spells b c s /\ m = T "unexpectd EOL" \/ spells (b ++ [92]) c s /\ m = T "ExprTokenizer: unexpected EOL").

Lemma dstring_ends : forall n c, (clen c <= n)%nat ->
  ends (fun '(s, c') => dq_body s /\ spells (s ++ T """") c c') (dq_fault c) (dstring_loop c).
Proof.
  assert (H0 : forall c m, at_end c -> m = T "unexpectd EOL" -> dq_fault c c m).
  { intros c m H1 ->. exists []. repeat split; auto. constructor. left. split; auto. reflexivity. }
  induction n as [|n IH]; intros c Hn.
  - destruct c; cbn [clen] in Hn; [|lia]. exists (Eof p). split; [reflexivity|]. apply H0; reflexivity.
  - destruct c as [p0|[|r] p0 t]; cbn [dstring_loop].
    + exists (Eof p0). split; [reflexivity|]. apply H0; reflexivity.
    + exists (Cons EOL p0 t). split; [reflexivity|]. apply H0; reflexivity.
    + cbn [clen] in Hn. destruct (r =? C """") eqn:E.
      * apply N.eqb_eq in E. subst. cbn; split; [constructor|auto].
      * destruct (r =? 92) eqn:E2.
        -- apply N.eqb_eq in E2. subst.
           destruct t as [p2|[|r2] p2 t2].
           ++ exists (Eof p2). split; [reflexivity|]. exists []. split; [constructor|]. split; [reflexivity|].
              right. split; [cbn; auto|reflexivity].
           ++ exists (Cons EOL p2 t2). split; [reflexivity|]. exists []. split; [constructor|]. split; [reflexivity|].
              right. split; [cbn; auto|reflexivity].
           ++ eapply ends_bind; [apply (IH t2); cbn [clen] in *; lia| |].
              ** intros s x [b [Hb [He H1]]]. exists (92 :: r2 :: b). split; [apply dq_esc; auto|]. split; auto.
                 destruct H1 as [[Sp H1]|[Sp H1]]; [left|right]; split; cbn; auto.
              ** intros [s c'] [H1 H2]. cbn [ends]. split; [apply dq_esc; auto|]. cbn. auto.
        -- apply N.eqb_neq in E, E2. eapply ends_bind; [apply (IH t); lia| |].
           ++ intros s x [b [Hb [He H1]]]. exists (r :: b). split; [apply dq_char; auto|]. split; auto.
              destruct H1 as [[Sp H1]|[Sp H1]]; [left|right]; split; cbn; auto.
           ++ intros [s c'] [H1 H2]. cbn [ends]. split; [apply dq_char; auto|]. cbn. auto.
Qed.

Lemma get_sstring_esafe {D} B c : wf B -> sfx c B -> ch_is (peek (skip_white c)) (C "'") = true ->
  esafe B D (fun '(s, c') => exists d, blank c d /\ sq_body s /\ spells (T "'" ++ s ++ T "'") d c')
    (get_sstring c).
Proof.
  intros Hw HB E. unfold get_sstring. pose proof (blank_skip c) as Hb.
  assert (Hs : sfx (skip_white c) B) by (eapply sfx_trans; [apply blank_sfx|]; eauto).
  rewrite p_0. cbn [bind]. rewrite E. cbn [negb].
  apply ch_is_peek in E. destruct E as [p [t E]]. rewrite E in *. cbn [seek_cur bind].
  eapply ends_esafe; [apply (sstring_ends (clen t)); auto| |].
  - intros [s c'] [H1 H2]. exists (Cons (R (C "'")) p t). split; [exact Hb|]. cbn. auto.
  - intros s m [b [Sp [Hq [He ->]]]]. split.
    + eapply sfx_trans; [eapply spells_sfx; eauto|]. eapply sfx_tail; eauto.
    + eapply ef_single; eauto. cbn. auto.
Qed.

Lemma get_dstring_esafe {D} B c : wf B -> sfx c B -> ch_is (peek (skip_white c)) (C """") = true ->
  esafe B D (fun '(s, c') => exists d, blank c d /\ dq_body s /\ spells (T """" ++ s ++ T """") d c')
    (get_dstring c).
Proof.
  intros Hw HB E. unfold get_dstring. pose proof (blank_skip c) as Hb.
  assert (Hs : sfx (skip_white c) B) by (eapply sfx_trans; [apply blank_sfx|]; eauto).
  rewrite p_0. cbn [bind]. rewrite E. cbn [negb].
  apply ch_is_peek in E. destruct E as [p [t E]]. rewrite E in *. cbn [seek_cur bind].
  eapply ends_esafe; [apply (dstring_ends (clen t)); auto| |].
  - intros [s c'] [H1 H2]. exists (Cons (R (C """")) p t). split; [exact Hb|]. cbn. auto.
  - intros s m [b [Hq [He H1]]]. split.
    + destruct H1 as [[Sp _]|[Sp _]]; (eapply sfx_trans; [eapply spells_sfx; eauto|]; eapply sfx_tail; eauto).
    + destruct H1 as [[Sp ->]|[Sp ->]]; [eapply ef_double|eapply ef_escape]; eauto; cbn; auto.
Qed.

Definition lk_fault (c s : cursor) (m : text) : Prop :=
  exists w, spells w c s /\ forallb is_litkey w = true /\ at_end s /\ m = T "unexpectd EOL".

Lemma litkey_loop_ends : forall c,
  ends (fun '(s, c') => forallb is_litkey s = true /\ spells s c c') (lk_fault c) (litkey_loop c).
Proof.
  induction c as [p|x p t IH]; cbn [litkey_loop].
  - exists (Eof p). split; [reflexivity|]. exists []. repeat split.
  - destruct x as [|r].
    + exists (Cons EOL p t). split; [reflexivity|]. exists []. repeat split.
    + destruct (is_litkey r) eqn:E; cbn [negb].
      * eapply ends_bind; [apply IH| |].
        -- intros s x [w [Sp [Hw H1]]]. exists (r :: w). cbn [forallb]. rewrite E. split; [cbn; auto|]. auto.
        -- intros [s c'] [H1 H2]. cbn. rewrite E, H1. auto.
      * cbn. auto.
Qed.

Lemma litkey_esafe {D} B c : wf B -> sfx c B -> key_due B c ->
  esafe B D (fun '(v, c') => exists d r x p t s, v = VLit LString (getpos t) (T "'" ++ (r :: s) ++ T "'") /\
     blank c d /\ d = Cons x p t /\ spells (r :: s) d c' /\ litkey_text (r :: s))
    (parse_dict_literal_key c).
Proof.
  intros Hw HB Hdue. unfold parse_dict_literal_key. pose proof (blank_skip c) as Hb.
  assert (Hs : sfx (skip_white c) B) by (eapply sfx_trans; [apply blank_sfx|]; eauto).
  destruct (skip_white c) as [p0|[|r] p t] eqn:Ed; cbn [peek ch_of_cell].
  - apply (esafe_raise B _ _ (Eof p0)); auto. apply (ef_key B D (Eof p0) c); auto. discriminate.
  - apply (esafe_raise B _ _ (Cons EOL p t)); auto. apply (ef_key B D (Cons EOL p t) c); auto. discriminate.
  - destruct (is_litkey r) eqn:E.
    + cbn [seek_cur bind]. eapply (esafe_bind _ (fun '(s, c') => forallb is_litkey s = true /\ spells s t c')).
      { eapply ends_esafe; [apply litkey_loop_ends|auto|]. intros s m [w [Sp [Hk [He ->]]]]. split.
        - eapply sfx_trans; [eapply spells_sfx; eauto|]. eapply sfx_tail; eauto.
        - apply (ef_litkey B D s (Cons (R r) p t) (r :: w)); auto. cbn. auto.
          split; [discriminate|]. cbn [forallb]. unfold is_litkey in E, Hk. rewrite E, Hk. auto. }
      intros [s c'] [H1 H2]. cbn [esafe].
      exists (Cons (R r) p t), r, (R r), p, t, s. repeat split; auto.
      discriminate. cbn [forallb]. unfold is_litkey in E, H1. rewrite E, H1. auto.
    + apply (esafe_raise B _ _ (Cons (R r) p t)); auto. apply (ef_key B D (Cons (R r) p t) c); auto.
      intros r' [= <-] [_ H]. cbn [forallb] in H. unfold is_litkey in E. rewrite E in H. discriminate.
Qed.
