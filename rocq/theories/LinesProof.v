(** Line splitting and UTF-8 decoding. *)
From Coq Require Import Lia ZifyBool ZifyNat ZifyN.
From Verif Require Import Base Utf8 CharClass Reader Cursor Places PlacesProof Api.

(** * UTF-8 *)

Ltac Zify.zify_post_hook ::= Z.to_euclidean_division_equations.

Lemma decode_encode1 r rest : scalar r = true -> decode (encode1 r ++ rest) = r :: decode rest.
Proof.
  intros H. unfold scalar in H. unfold encode1.
  destruct (r <? 128) eqn:E1. { cbn [app decode]. rewrite E1. reflexivity. }
  destruct (r <? 2048) eqn:E2.
  { cbn [app decode]. replace (192 + r / 64 <? 128) with false by lia.
    replace (in_range 194 223 (192 + r / 64)) with true by (unfold in_range; lia).
    replace (is_cont (128 + r mod 64)) with true by (unfold is_cont, in_range; lia).
    f_equal. lia. }
  destruct (r <? 65536) eqn:E3.
  { cbn [app decode]. replace (224 + r / 4096 <? 128) with false by lia.
    replace (in_range 194 223 (224 + r / 4096)) with false by (unfold in_range; lia).
    replace (in_range 224 239 (224 + r / 4096)) with true by (unfold in_range; lia).
    replace (is_cont (128 + r mod 64)) with true by (unfold is_cont, in_range; lia).
    replace (ok2_of3 (224 + r / 4096) (128 + (r / 64) mod 64)) with true.
    2: { unfold ok2_of3, is_cont, in_range.
         destruct (224 + r / 4096 =? 224) eqn:A; [lia|].
         destruct (224 + r / 4096 =? 237) eqn:A2; lia. }
    cbn [andb]. f_equal. lia. }
  { cbn [app decode]. replace (240 + r / 262144 <? 128) with false by lia.
    replace (in_range 194 223 (240 + r / 262144)) with false by (unfold in_range; lia).
    replace (in_range 224 239 (240 + r / 262144)) with false by (unfold in_range; lia).
    replace (in_range 240 244 (240 + r / 262144)) with true by (unfold in_range; lia).
    replace (is_cont (128 + r mod 64)) with true by (unfold is_cont, in_range; lia).
    replace (is_cont (128 + (r / 64) mod 64)) with true by (unfold is_cont, in_range; lia).
    replace (ok2_of4 (240 + r / 262144) (128 + (r / 4096) mod 64)) with true.
    2: { unfold ok2_of4, is_cont, in_range.
         destruct (240 + r / 262144 =? 240) eqn:A; [lia|].
         destruct (240 + r / 262144 =? 244) eqn:A2; lia. }
    cbn [andb]. f_equal. lia. }
Qed.
Ltac Zify.zify_post_hook ::= idtac.

Lemma decode_encode t : Forall (fun r => scalar r = true) t -> decode (encode t) = t.
Proof.
  induction 1; [reflexivity|]. unfold encode. cbn [flat_map]. rewrite decode_encode1; auto.
  f_equal. exact IHForall.
Qed.
Lemma utf8_decode l t : utf8 l t -> decode l = t.
Proof. intros [-> H]. apply decode_encode; auto. Qed.

(** * Lines *)

Lemma drop_cr_rev_spec cur : without_cr (rev cur) (drop_cr_rev cur).
Proof.
  destruct cur as [|b cur].
  - apply wc_no. intros l' H. destruct l'; discriminate.
  - destruct (N.eq_dec b 13) as [->|E].
    + cbn [rev drop_cr_rev]. unfold rev'. rewrite <- rev_alt. apply wc_cr.
    + replace (drop_cr_rev (b :: cur)) with (rev (b :: cur)).
      2: { unfold drop_cr_rev, rev'. rewrite <- !rev_alt. destruct b as [|p]; [reflexivity|].
           do 4 (destruct p as [p|p|]; try reflexivity). exfalso; apply E; reflexivity. }
      apply wc_no. intros l' H. cbn [rev] in H. apply app_inj_tail in H. destruct H; auto.
Qed.
Lemma without_cr_fun l a b : without_cr l a -> without_cr l b -> a = b.
Proof.
  intros [x|x H1] H2; inversion H2 as [y E|y H]; subst; auto.
  - apply app_inj_tail in E. symmetry. tauto.
  - exfalso. eapply H; reflexivity.
  - exfalso. eapply H1; reflexivity.
Qed.

(** Scanning one line. *)
Lemma scan_line l : forall cur n bs, ~ has_lf l -> N.of_nat (length cur) = n -> N.of_nat (length cur) < 65536 ->
  scan_lines (l ++ bs) cur n =
  if max_line <=? n + N.of_nat (length l) then [] else scan_lines bs (rev l ++ cur) (n + N.of_nat (length l)).
Proof.
  induction l as [|b l IH]; intros cur n bs H Hn Hs; cbn [app length].
  - replace (max_line <=? n + N.of_nat 0) with false by (unfold max_line; lia).
    cbn [rev app]. f_equal. lia.
  - cbn [scan_lines]. destruct (b =? 10) eqn:E. { apply N.eqb_eq in E. subst. exfalso. apply H. left; auto. }
    destruct (max_line <=? n + 1) eqn:E2.
    + replace (max_line <=? n + N.of_nat (S (length l))) with true by lia. auto.
    + rewrite IH; cbn [length]. 
      * replace (n + 1 + N.of_nat (length l)) with (n + N.of_nat (S (length l))) by lia.
        cbn [rev]. rewrite <- app_assoc. reflexivity.
      * intros K. apply H. right; auto.
      * lia.
      * unfold max_line in E2. lia.
Qed.

Lemma readlines_spec bs ls : split_lines bs ls ->
  forall b, exists ls', until_long ls ls' /\ Forall2 without_cr ls' (readlines (mkSource bs b)).
Proof.
  intros H b. unfold readlines. cbn [s_bytes]. induction H.
  - exists []. split; constructor.
  - pose proof (scan_line l [] 0 []) as K. rewrite !app_nil_r in K. rewrite K; auto; [|cbn; lia]. clear K.
    destruct (max_line <=? 0 + N.of_nat (length l)) eqn:E.
    + exists []. split; [|constructor]. apply ul_stop. unfold short, max_line in *. lia.
    + exists [l]. split. { apply ul_go. unfold short, max_line in *. lia. constructor. }
      cbn [scan_lines]. destruct (rev l) eqn:El.
      { destruct l; [contradiction|]. cbn [rev] in El. destruct (rev l); discriminate. }
      constructor; [|constructor]. rewrite <- El. pose proof (drop_cr_rev_spec (rev l)) as K. rewrite rev_involutive in K. auto.
  - rewrite scan_line; auto; [|cbn; lia]. rewrite app_nil_r.
    destruct (max_line <=? 0 + N.of_nat (length l)) eqn:E.
    + exists []. split; [|constructor]. apply ul_stop. unfold short, max_line in *. lia.
    + destruct IHsplit_lines as [ls' [H1 H2]]. exists (l :: ls'). split.
      { apply ul_go; auto. unfold short, max_line in *. lia. }
      cbn [scan_lines N.eqb Pos.eqb]. constructor; auto.
      pose proof (drop_cr_rev_spec (rev l)) as K. rewrite rev_involutive in K. auto.
Qed.

Lemma until_long_all ls : Forall short ls -> forall r, until_long ls r -> r = ls.
Proof. induction 1; intros r H1; inversion H1; subst; auto. contradiction. f_equal; auto. Qed.

(** All lines short: nothing is lost. *)
Lemma readlines_all bs ls b : split_lines bs ls -> Forall short ls ->
  Forall2 without_cr ls (readlines (mkSource bs b)).
Proof.
  intros H1 H2. destruct (readlines_spec _ _ H1 b) as [ls' [H3 H4]].
  apply until_long_all in H3; auto. subst; auto.
Qed.

Lemma split_exists bs : exists ls, split_lines bs ls.
Proof.
  induction bs as [|b bs [ls IH]]. { exists []. constructor. }
  destruct (N.eq_dec b 10) as [->|E]. { exists ([] :: ls). apply (sl_line []); auto. }
  inversion IH; subst.
  - exists [[b]]. apply sl_last; [|discriminate]. intros [K|[]]. auto.
  - exists [b :: bs]. apply sl_last; [|discriminate]. intros [K|K]; auto.
  - exists ((b :: l) :: ls0). change (b :: l ++ 10 :: bs0) with ((b :: l) ++ 10 :: bs0).
    apply sl_line; auto. intros [K|K]; auto.
Qed.

(** Where a line lies in the bytes. *)
Definition blength (l : list N) : N := N.of_nat (length l).
Fixpoint start_of (ls : list (list N)) (n : nat) : N :=
  match n, ls with S n', l :: r => blength l + 1 + start_of r n' | _, _ => 0 end.
Lemma split_nth bs ls : split_lines bs ls -> forall n l, nth_error ls n = Some l ->
  exists pre post, bs = pre ++ l ++ post /\ blength pre = start_of ls n /\
    (post = [] \/ exists p, post = 10 :: p).
Proof.
  induction 1; intros n x Hx.
  - destruct n; discriminate.
  - destruct n as [|[|n]]; cbn in Hx; try discriminate. inversion Hx; subst.
    exists [], []. rewrite app_nil_r. auto.
  - destruct n as [|n]; cbn [nth_error] in Hx.
    + inversion Hx; subst. exists [], (10 :: bs). split; [auto|]. split; [auto|]. eauto.
    + destruct (IHsplit_lines _ _ Hx) as [pre [post [-> [H1 H2]]]].
      exists (l ++ 10 :: pre), post. split; [rewrite <- app_assoc; reflexivity|]. split; auto.
      cbn [start_of]. rewrite <- H1. unfold blength. rewrite app_length. cbn [length]. lia.
Qed.
Lemma start_of_lines ls ts : Forall2 utf8 ls ts -> forall n, start_of ls n = line_start ts n.
Proof.
  induction 1; intros n; destruct n; cbn [start_of line_start]; auto.
  rewrite IHForall2. destruct H as [-> _]. reflexivity.
Qed.

(** Texts with line feeds only, valid UTF-8 and short lines: the reader gets the lines. *)
Lemma plain_lines bs ls ts b : plain bs ls ts -> map decode (readlines (mkSource bs b)) = ts.
Proof.
  intros [H1 [H2 [H3 H4]]]. pose proof (readlines_all _ _ b H1 H2) as H5.
  assert (E : readlines (mkSource bs b) = ls).
  { revert H3 H5. generalize (readlines (mkSource bs b)). clear. intros r H3 H5.
    induction H5; auto. inversion H3; subst. f_equal; auto. inversion H; subst; auto. exfalso. eapply H2; eauto. }
  rewrite E. clear -H4. induction H4; cbn [map]; auto. f_equal; auto. apply utf8_decode; auto.
Qed.
Lemma plain_open bs ls ts b : plain bs ls ts -> open_source (mkSource bs b) = new_reader ts.
Proof. intros H. unfold open_source. rewrite (plain_lines _ _ _ b H). auto. Qed.

(** A place of the lines, found in the bytes. *)
Lemma offset_in_bytes bs ls ts : plain bs ls ts -> forall r n col off,
  place_in ts (Some (R r)) n col -> offset_in ts n col off ->
  exists pre post, bs = pre ++ encode1 r ++ post /\ blength pre = off.
Proof.
  intros [H1 [H2 [H3 H4]]] r n col off Hp Ho.
  inversion Hp as [n0 l pre r0 post H0 El E1 E2 E3| |]; subst.
  inversion Ho as [n1 l1 pre1 post1 H7 E1 E2 E3 E4|E1 E2]; subst.
  - assert (n1 = n0) by lia. subst n1. rewrite H0 in H7. inversion H7 as [H9]; subst.
    assert (E : pre1 = pre /\ exists q, post1 = r :: q).
    { assert (Hb : bytes pre = bytes pre1) by lia. clear -Hb H9.
      revert pre1 Hb H9. induction pre as [|a pre IH]; intros pre1 Hb H9.
      - rewrite bytes_nil in Hb. destruct pre1 as [|x pre1]. split; eauto.
        rewrite bytes_cons in Hb. pose proof (rune_len_pos x). lia.
      - destruct pre1 as [|x pre1].
        + rewrite bytes_cons, bytes_nil in Hb. pose proof (rune_len_pos a). lia.
        + cbn [app] in H9. inversion H9; subst. rewrite !bytes_cons in Hb.
          destruct (IH pre1) as [-> [q ->]]; eauto. lia. }
    destruct E as [-> [q ->]]. clear H9.
    assert (Hl : exists l, nth_error ls n0 = Some l /\ utf8 l (pre ++ r :: post)).
    { clear -H0 H4. revert ts H4 H0. generalize (pre ++ r :: post). intros t.
      revert ls. induction n0; intros ls ts H4 H0; inversion H4; subst; try discriminate; cbn [nth_error] in *.
      - inversion H0; subst. eauto.
      - eapply IHn0; eauto. }
    destruct Hl as [l [Hl Hu]]. destruct (split_nth _ _ H1 _ _ Hl) as [p [s [-> [Hs _]]]].
    destruct Hu as [-> _]. exists (p ++ encode pre), (encode post ++ s). split.
    + unfold encode. rewrite flat_map_app. cbn [flat_map]. rewrite <- !app_assoc. reflexivity.
    + unfold blength in *. rewrite app_length. rewrite (start_of_lines _ _ H4) in Hs. unfold bytes. lia.
  - exfalso. lia.
Qed.

(** * The lines that are parsed *)

Lemma split_app_lf l1 l2 a b : ~ has_lf l1 -> ~ has_lf l2 -> l1 ++ 10 :: a = l2 ++ 10 :: b -> l1 = l2 /\ a = b.
Proof.
  revert l2; induction l1 as [|x l1 IH]; intros [|y l2] H1 H2 E; cbn [app] in E; inversion E; subst; auto.
  - exfalso. apply H2. left; auto.
  - exfalso. apply H1. left; auto.
  - destruct (IH l2) as [-> ->]; auto. intros K; apply H1; right; auto. intros K; apply H2; right; auto.
Qed.
Lemma split_unique bs a : split_lines bs a -> forall b, split_lines bs b -> a = b.
Proof.
  induction 1; intros b Hb; inversion Hb; subst; auto.
  - contradiction.
  - destruct l; discriminate.
  - contradiction.
  - exfalso. apply H. apply in_or_app. right; left; auto.
  - destruct l; discriminate.
  - exfalso. apply H1. apply in_or_app. right; left; auto.
  - apply split_app_lf in H1; auto. destruct H1 as [-> ->]. f_equal; auto.
Qed.
Lemma until_long_unique l a : until_long l a -> forall b, until_long l b -> a = b.
Proof. induction 1; intros b Hb; inversion Hb; subst; auto; try contradiction. f_equal; auto. Qed.

Lemma seen_lines_iff bs ts b : seen_lines bs ts <-> ts = map decode (readlines (mkSource bs b)).
Proof.
  split.
  - intros [ls [ls1 [ls2 [H1 [H2 [H3 ->]]]]]]. f_equal.
    destruct (readlines_spec _ _ H1 b) as [l' [H4 H5]]. rewrite <- (until_long_unique _ _ H2 _ H4) in H5.
    clear -H3 H5. revert H5. generalize (readlines (mkSource bs b)). induction H3; intros r H5; inversion H5; subst; auto.
    f_equal; auto. eapply without_cr_fun; eauto.
  - intros ->. destruct (split_exists bs) as [ls H]. destruct (readlines_spec _ _ H b) as [l' [H4 H5]].
    exists ls, l', (readlines (mkSource bs b)). auto.
Qed.
Lemma seen_open bs ts b : seen_lines bs ts -> open_source (mkSource bs b) = new_reader ts.
Proof. intros H. apply (seen_lines_iff bs ts b) in H. unfold open_source. rewrite H. auto. Qed.
Lemma seen_exists bs : exists ts, seen_lines bs ts.
Proof. exists (map decode (readlines (mkSource bs false))). apply (seen_lines_iff _ _ false). auto. Qed.
Lemma plain_seen bs ls ts : plain bs ls ts -> seen_lines bs ts.
Proof. intros H. apply (seen_lines_iff _ _ false). symmetry. eapply plain_lines; eauto. Qed.

(** * Number of cells *)

Lemma decode_length l : (length (decode l) <= length l)%nat.
Proof.
  remember (length l) as n eqn:E. assert (H : (length l <= n)%nat) by lia. clear E. revert l H.
  induction n as [|n IH]; intros l H.
  - destruct l; cbn in *; lia.
  - destruct l as [|b0 l]; cbn [decode length] in *; [lia|].
    assert (H0 := IH l ltac:(lia)).
    destruct (b0 <? 128); [cbn [length]; lia|].
    destruct (in_range 194 223 b0).
    { destruct l as [|b1 l1]; [cbn [length] in *; lia|]. destruct (is_cont b1); cbn [length] in *; [|lia].
      assert (K := IH l1 ltac:(lia)). lia. }
    destruct (in_range 224 239 b0).
    { destruct l as [|b1 [|b2 l2]]; cbn [length] in *; try lia. destruct (_ && _); cbn [length] in *; [|lia].
      assert (K := IH l2 ltac:(lia)). lia. }
    destruct (in_range 240 244 b0).
    { destruct l as [|b1 [|b2 [|b3 l3]]]; cbn [length] in *; try lia. destruct (_ && _); cbn [length] in *; [|lia].
      assert (K := IH l3 ltac:(lia)). lia. }
    cbn [length]; lia.
Qed.
Fixpoint total (ts : list text) : nat := match ts with [] => O | t :: r => (length t + 1 + total r)%nat end.
Lemma clen_put_first t i ln col off k : clen (put_first t i ln col off k) = (length t + clen (k (i + N.of_nat (length t))%N))%nat.
Proof.
  revert i col off; induction t as [|r t IH]; intros i col off; cbn [put_first clen length].
  - replace (i + N.of_nat 0) with i by lia. reflexivity.
  - rewrite IH. replace (i + 1 + N.of_nat (length t)) with (i + N.of_nat (S (length t))) by lia. lia.
Qed.
Lemma clen_put_cont t i ln col k : clen (put_cont t i ln col k) = (length t + clen (k (i + N.of_nat (length t))%N))%nat.
Proof.
  revert i col; induction t as [|r t IH]; intros i col; cbn [put_cont clen length].
  - replace (i + N.of_nat 0) with i by lia. reflexivity.
  - rewrite IH. replace (i + 1 + N.of_nat (length t)) with (i + N.of_nat (S (length t))) by lia. lia.
Qed.
Lemma skip_backslash_len l col : (length (fst (skip_backslash l col)) <= length l)%nat.
Proof. revert col; induction l; intros col; cbn [skip_backslash length fst]; [auto|]. destruct (a =? 92); cbn [fst]; [lia|]. specialize (IHl (col + rune_len a)). lia. Qed.
Lemma clen_build ts : forall i ln col off, (clen (build_more ts i ln col off) <= 1 + total ts)%nat.
Proof.
  induction ts as [|l ts IH]; intros i ln col off; cbn [build_more total]; [cbn; lia|].
  destruct (re_continuation l).
  - pose proof (skip_backslash_len l 0) as K. destruct (skip_backslash l 0) as [t c]. cbn [fst] in K.
    rewrite clen_put_cont. match goal with |- (_ + clen (build_more _ ?a ?b ?c ?d) <= _)%nat => specialize (IH a b c d) end. lia.
  - cbn [clen]. rewrite clen_put_first.
    match goal with |- (S (_ + clen (build_more _ ?a ?b ?c ?d)) <= _)%nat => specialize (IH a b c d) end. lia.
Qed.
Lemma clen_reader ts : (clen (new_reader ts) <= total ts)%nat.
Proof.
  destruct ts as [|l ts]; cbn [new_reader total]; [cbn; lia|]. rewrite clen_put_first.
  match goal with |- (_ + clen (build_more _ ?a ?b ?c ?d) <= _)%nat => pose proof (clen_build ts a b c d) end. lia.
Qed.
Lemma seen_total bs ts : seen_lines bs ts -> (total ts <= length bs + 1)%nat.
Proof.
  intros [ls [ls1 [ls2 [H1 [H2 [H3 ->]]]]]].
  assert (K1 : forall ls, split_lines bs ls -> (total ls <= length bs + 1)%nat).
  { clear. induction 1; cbn [total length]; [lia|lia|]. rewrite app_length. cbn [length]. lia. }
  specialize (K1 _ H1). assert (K2 : (total ls1 <= total ls)%nat).
  { clear -H2. induction H2; cbn [total] in *; lia. }
  assert (K3 : (total (map decode ls2) <= total ls1)%nat).
  { clear -H3. induction H3; cbn [map total]; auto. pose proof (decode_length y).
    assert (length y <= length x)%nat. { destruct H; auto. rewrite app_length; cbn; lia. } lia. }
  lia.
Qed.

(** * Index and offset agree on ASCII text without continuation lines *)

Definition ascii (t : text) : Prop := Forall (fun r => r < 128) t.
Lemma ascii_len r : r < 128 -> rune_len r = 1.
Proof. intros H. unfold rune_len. replace (r <? 128) with true by lia. auto. Qed.
Lemma put_first_same t i ln col k s : ascii t ->
  (forall s, sfx s (k (i + N.of_nat (length t))) -> p_i (getpos s) = p_off (getpos s)) ->
  sfx s (put_first t i ln col i k) -> p_i (getpos s) = p_off (getpos s).
Proof.
  intros Ha. revert i col; induction Ha as [|r t Hr Ha IH]; intros i col Hk H; cbn [put_first length] in *.
  - replace (i + N.of_nat 0) with i in Hk by lia. auto.
  - rewrite (ascii_len _ Hr) in H. inversion H; subst; auto. eapply IH; [|exact H2].
    replace (i + 1 + N.of_nat (length t)) with (i + N.of_nat (S (length t))) by lia. auto.
Qed.
Lemma blen_ascii t : ascii t -> blen t = N.of_nat (length t).
Proof. induction 1; cbn [blen length]; auto. rewrite IHForall, ascii_len; auto. lia. Qed.
Lemma build_same ts : Forall ascii ts -> Forall (fun l => ~ is_continuation l) ts ->
  forall i ln col s, sfx s (build_more ts i ln col i) -> p_i (getpos s) = p_off (getpos s).
Proof.
  induction 1 as [|t ts Ha Hs IH]; intros Hc i ln col s H; cbn [build_more] in H.
  - inversion H; subst; auto. inversion H2; subst; auto.
  - inversion Hc; subst. destruct (re_continuation t) eqn:E. { apply continuation_iff in E. contradiction. }
    inversion H; subst; auto. eapply put_first_same; [exact Ha| |exact H4].
    intros s0 H0. rewrite (blen_ascii t Ha) in H0. eapply IH; eauto.
Qed.
Lemma reader_same ts s : Forall ascii ts -> Forall (fun l => ~ is_continuation l) (tl ts) ->
  sfx s (new_reader ts) -> p_i (getpos s) = p_off (getpos s).
Proof.
  destruct ts as [|t ts]; cbn [new_reader tl]; intros Ha Hc H. { inversion H; auto. }
  inversion Ha; subst. eapply put_first_same; [eassumption| |exact H].
  intros s0 H0. rewrite (blen_ascii t) in H0; auto. eapply build_same; eauto.
Qed.

(** * Cells in front of a place *)
Lemma sfx_view s c : sfx s c -> exists pre, view c = pre ++ view s /\ length pre = (clen c - clen s)%nat.
Proof.
  induction 1. { exists []. split; auto. cbn. lia. }
  destruct IHsfx as [pre [E H1]]. cbn [view]. rewrite E. exists ((x, p_lnum p, p_col p) :: pre). split; auto.
  pose proof (sfx_clen _ _ H). cbn [length clen]. lia.
Qed.
Lemma reader_count ts s : sfx s (new_reader ts) ->
  exists ls pre post, logical 1 ts ls /\ flat_map logical_cells ls = pre ++ post /\
    p_i (getpos s) = N.of_nat (length pre) /\
    (post = [] \/ exists x post', post = (x, p_lnum (getpos s), p_col (getpos s)) :: post').
Proof.
  intros H. destruct (reader_logical ts) as [ls [H1 H2]]. destruct (sfx_view _ _ H) as [pre [H3 H4]].
  exists ls, pre, (view s). split; auto. split; [congruence|]. split. { rewrite H4. apply reader_index; auto. }
  destruct s; cbn [view getpos]; eauto.
Qed.

(** Cells of the reader, as suffixes. *)
Lemma view_sfx c x n col : In (x, n, col) (view c) ->
  exists s, sfx s c /\ next_cell s = Some x /\ p_lnum (getpos s) = n /\ p_col (getpos s) = col.
Proof.
  induction c as [|y p c IH]; cbn [view]; [intros []|]. intros [E|H].
  - inversion E; subst. exists (Cons x p c). repeat split. constructor.
  - destruct (IH H) as [s [H1 H2]]. exists s. split; auto. constructor; auto.
Qed.
Lemma plain_place bs ls ts : plain bs ls ts -> forall r n col, place_in ts (Some (R r)) n col ->
  exists i l pre post, nth_error ls i = Some l /\ n = N.of_nat i + 1 /\
    l = pre ++ encode1 r ++ post /\ col = N.of_nat (length pre) + 1.
Proof.
  intros [_ [_ [_ H]]] r n col Hp. inversion Hp as [i t pre x post E1 E2 E3 E4 E5| |]; subst.
  assert (K : exists l, nth_error ls i = Some l /\ utf8 l (pre ++ r :: post)).
  { clear -H E1. revert i E1. induction H; intros i E1; destruct i; try discriminate; cbn [nth_error] in *.
    - inversion E1; subst; eauto.
    - eauto. }
  destruct K as [l [K1 [K2 _]]]. exists i, l, (encode pre), (encode post). split; auto. split; auto.
  split; auto. rewrite K2. unfold encode. rewrite flat_map_app. reflexivity.
Qed.
