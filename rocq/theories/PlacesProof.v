(** The reader places characters where the specification says. *)
From Coq Require Import Lia ZifyBool ZifyNat ZifyN.
From Verif Require Import Base Utf8 CharClass Reader Cursor Places.

Lemma encode1_len r : N.of_nat (length (encode1 r)) = rune_len r.
Proof.
  unfold encode1, rune_len. destruct (r <? 128); [reflexivity|].
  destruct (r <? 2048); [reflexivity|]. destruct (r <? 65536); reflexivity.
Qed.
Lemma bytes_nil : bytes [] = 0. Proof. reflexivity. Qed.
Lemma bytes_app a b : bytes (a ++ b) = bytes a + bytes b.
Proof. unfold bytes, encode. rewrite flat_map_app, app_length. lia. Qed.
Lemma bytes_cons r t : bytes (r :: t) = rune_len r + bytes t.
Proof. change (r :: t) with ([r] ++ t). rewrite bytes_app. f_equal.
  unfold bytes, encode. cbn [flat_map]. rewrite app_nil_r. apply encode1_len. Qed.
Lemma blen_bytes t : blen t = bytes t.
Proof. induction t; cbn [blen]. reflexivity. rewrite bytes_cons, IHt. reflexivity. Qed.
Lemma rune_len_pos r : 1 <= rune_len r.
Proof. unfold rune_len. destruct (r <? 128), (r <? 2048), (r <? 65536); lia. Qed.

Lemma continuation_iff l : re_continuation l = true <-> is_continuation l.
Proof.
  induction l as [|c l IH]; cbn [re_continuation].
  - split; [discriminate|]. intros [ws [t [H _]]]. destruct ws; discriminate.
  - rewrite orb_true_iff, andb_true_iff, N.eqb_eq, IH. split.
    + intros [->|[H [ws [t [-> H2]]]]].
      * exists [], l. split; reflexivity.
      * exists (c :: ws), t. split; [reflexivity|]. cbn [forallb]. rewrite H, H2. reflexivity.
    + intros [ws [t [H H2]]]. destruct ws as [|w ws]; cbn [app] in H; inversion H; subst; auto.
      cbn [forallb] in H2. apply andb_true_iff in H2. destruct H2. right. split; auto.
      exists ws, t. split; auto.
Qed.

Lemma space_not_backslash : re_space 92 = false.
Proof. reflexivity. Qed.
Lemma spaces_no_backslash ws : forallb re_space ws = true -> ~ In 92 ws.
Proof.
  intros H K. rewrite forallb_forall in H. apply H in K. rewrite space_not_backslash in K. discriminate.
Qed.

Lemma skip_backslash_spec ws t col : ~ In 92 ws ->
  skip_backslash (ws ++ 92 :: t) col = (t, col + bytes ws + 1).
Proof.
  revert col; induction ws as [|w ws IH]; intros col H; cbn [app skip_backslash].
  - rewrite N.eqb_refl, bytes_nil. f_equal. change (rune_len 92) with 1. lia.
  - destruct (w =? 92) eqn:E. { apply N.eqb_eq in E. subst. exfalso; apply H; left; auto. }
    rewrite IH. rewrite bytes_cons. f_equal. lia. intros K; apply H; right; auto.
Qed.

(** * Suffixes of a line *)

Lemma put_first_sfx t i ln col off k s : sfx s (put_first t i ln col off k) ->
  (exists pre r post, t = pre ++ r :: post /\ next_cell s = Some (R r) /\
     getpos s = mkPos (i + N.of_nat (length pre)) ln (col + bytes pre + 1) (off + bytes pre)) \/
  sfx s (k (i + N.of_nat (length t))).
Proof.
  revert i col off; induction t as [|r t IH]; intros i col off H; cbn [put_first] in H.
  - right. cbn [length]. replace (i + N.of_nat 0) with i by lia. auto.
  - inversion H; subst.
    + left. exists [], r, t. split; [reflexivity|split; [reflexivity|]]. cbn [getpos length].
      rewrite bytes_nil. f_equal; lia.
    + apply IH in H2. destruct H2 as [[pre [r0 [post [-> [H3 H4]]]]]|H2].
      * left. exists (r :: pre), r0, post. split; [reflexivity|split; [auto|]]. rewrite H4.
        rewrite bytes_cons. cbn [length]. f_equal; lia.
      * right. cbn [length]. replace (i + N.of_nat (S (length t))) with (i + 1 + N.of_nat (length t)) by lia. auto.
Qed.
Lemma put_cont_sfx t i ln col k s : sfx s (put_cont t i ln col k) ->
  (exists pre r post, t = pre ++ r :: post /\ next_cell s = Some (R r) /\
     getpos s = mkPos (i + N.of_nat (length pre)) ln (col + bytes pre + 1) 0) \/
  sfx s (k (i + N.of_nat (length t))).
Proof.
  revert i col; induction t as [|r t IH]; intros i col H; cbn [put_cont] in H.
  - right. cbn [length]. replace (i + N.of_nat 0) with i by lia. auto.
  - inversion H; subst.
    + left. exists [], r, t. split; [reflexivity|split; [reflexivity|]]. cbn [getpos length].
      rewrite bytes_nil. f_equal; lia.
    + apply IH in H2. destruct H2 as [[pre [r0 [post [-> [H3 H4]]]]]|H2].
      * left. exists (r :: pre), r0, post. split; [reflexivity|split; [auto|]]. rewrite H4.
        rewrite bytes_cons. cbn [length]. f_equal; lia.
      * right. cbn [length]. replace (i + N.of_nat (S (length t))) with (i + 1 + N.of_nat (length t)) by lia. auto.
Qed.

(** A place with its offset; the characters of continuation lines have offset 0. *)
Definition placed (lines : list text) (s : cursor) : Prop :=
  place_in lines (next_cell s) (p_lnum (getpos s)) (p_col (getpos s)) /\
  (offset_in lines (p_lnum (getpos s)) (p_col (getpos s)) (p_off (getpos s)) \/
   (p_off (getpos s) = 0 /\
    exists n l, N.of_nat (S n) = p_lnum (getpos s) /\ n <> O /\
      nth_error lines n = Some l /\ is_continuation l /\ exists r, next_cell s = Some (R r))).

Lemma line_start_S done l rest : line_start (done ++ l :: rest) (S (length done)) =
  line_start (done ++ l :: rest) (length done) + bytes l + 1.
Proof.
  induction done as [|d done IH]; cbn [app length line_start].
  - destruct rest; cbn [line_start]; lia.
  - cbn [app length line_start] in IH. rewrite IH. lia.
Qed.
Lemma nth_done {A} (done : list A) l rest : nth_error (done ++ l :: rest) (length done) = Some l.
Proof. induction done; cbn; auto. Qed.

Lemma build_more_places : forall rest done l i off s,
  off = line_start (done ++ l :: rest) (length done) + bytes l ->
  sfx s (build_more rest i (N.of_nat (length done) + 1) (blen l) off) ->
  placed (done ++ l :: rest) s.
Proof.
  induction rest as [|l2 rest IH]; intros done l i off s Ho H; cbn [build_more] in H.
  - inversion H; subst.
    + unfold placed. cbn [next_cell getpos p_lnum p_col p_off]. rewrite blen_bytes. split.
      * apply pi_eol. apply nth_done.
      * left. apply (oi_line _ _ l l []). apply nth_done. rewrite app_nil_r; auto.
    + inversion H2; subst. unfold placed. cbn [next_cell getpos p_lnum p_col p_off]. split.
      * replace (N.of_nat (length done) + 1 + 1) with (N.of_nat (length (done ++ [l])) + 1).
        apply pi_eof. rewrite app_length. cbn [length]. lia.
      * left. replace (N.of_nat (length done) + 1 + 1) with (N.of_nat (length (done ++ [l])) + 1).
        2: { rewrite app_length. cbn [length]. lia. }
        match goal with |- offset_in _ _ _ ?x => replace x with (line_start (done ++ [l]) (length (done ++ [l]))) end.
        apply oi_eof. rewrite app_length. cbn [length]. replace (length done + 1)%nat with (S (length done)) by lia.
        rewrite line_start_S. lia.
  - assert (Hnext : forall i', sfx s (build_more rest i' (N.of_nat (length done) + 1 + 1) (blen l2) (off + 1 + bytes l2)) ->
      placed (done ++ l :: l2 :: rest) s).
    { intros i' Hs. specialize (IH (done ++ [l]) l2 i' (off + 1 + bytes l2) s).
      rewrite <- app_assoc in IH. cbn [app] in IH. apply IH.
      - rewrite app_length. cbn [length]. replace (length done + 1)%nat with (S (length done)) by lia.
        rewrite line_start_S. lia.
      - rewrite app_length. cbn [length].
        replace (N.of_nat (length done + 1) + 1) with (N.of_nat (length done) + 1 + 1) by lia. auto. }
    assert (Hnth : nth_error (done ++ l :: l2 :: rest) (S (length done)) = Some l2).
    { replace (S (length done)) with (length (done ++ [l])) by (rewrite app_length; cbn; lia).
      change (l :: l2 :: rest) with ([l] ++ l2 :: rest). rewrite app_assoc. apply nth_done. }
    destruct (re_continuation l2) eqn:Ec.
    + apply continuation_iff in Ec. destruct Ec as [ws [t Ec]]. destruct Ec as [El Ew] eqn:Hec.
      assert (Hws := spaces_no_backslash _ Ew). rewrite El in H. rewrite skip_backslash_spec in H; auto.
      rewrite <- El in H. apply put_cont_sfx in H.
      destruct H as [[pre [r [post [-> [G3 G4]]]]]|H].
      * unfold placed. rewrite G3, G4. cbn [p_lnum p_col p_off]. split.
        -- replace (N.of_nat (length done) + 1 + 1) with (N.of_nat (S (length done)) + 1) by lia.
           replace (0 + bytes ws + 1 + bytes pre + 1) with (bytes (ws ++ 92 :: pre) + 1).
           2: { rewrite bytes_app, bytes_cons. change (rune_len 92) with 1. lia. }
           eapply pi_char. exact Hnth. rewrite El. rewrite <- app_assoc. reflexivity.
        -- right. split; auto. exists (S (length done)), l2. split; [lia|]. split; [lia|].
           split; [auto|]. split; [|eauto]. exists ws, (pre ++ r :: post). auto.
      * rewrite blen_bytes in H. replace (off + bytes l2 + 1) with (off + 1 + bytes l2) in H by lia.
        rewrite <- blen_bytes in H at 1. eapply Hnext. exact H.
    + inversion H; subst s.
      * unfold placed. cbn [next_cell getpos p_lnum p_col p_off]. rewrite blen_bytes. split.
        -- apply pi_eol. apply nth_done.
        -- left. subst off. apply (oi_line _ _ l l []). apply nth_done. rewrite app_nil_r; auto.
      * apply put_first_sfx in H2. destruct H2 as [[pre [r [post [E [G3 G4]]]]]|H2].
        -- unfold placed. rewrite G3, G4. cbn [p_lnum p_col p_off].
           replace (N.of_nat (length done) + 1 + 1) with (N.of_nat (S (length done)) + 1) by lia.
           replace (0 + bytes pre + 1) with (bytes pre + 1) by lia. split.
           ++ eapply pi_char; eauto.
           ++ left. replace (off + 1 + bytes pre) with
                (line_start (done ++ l :: l2 :: rest) (S (length done)) + bytes pre).
              2: { rewrite line_start_S. lia. }
              eapply oi_line; eauto.
        -- rewrite <- blen_bytes in Hnext. eapply Hnext. exact H2.
Qed.

Lemma reader_places lines s : sfx s (new_reader lines) -> placed lines s.
Proof.
  destruct lines as [|l rest]; cbn [new_reader]; intros H.
  - inversion H; subst. split. apply (pi_eof []). left. apply (oi_eof []).
  - apply put_first_sfx in H. destruct H as [[pre [r [post [-> [G3 G4]]]]]|H].
    + unfold placed. rewrite G3, G4. cbn [p_lnum p_col p_off].
      replace (0 + bytes pre + 1) with (bytes pre + 1) by lia. split.
      * apply (pi_char ((pre ++ r :: post) :: rest) 0 (pre ++ r :: post) pre r post); reflexivity.
      * left. apply (oi_line ((pre ++ r :: post) :: rest) 0 (pre ++ r :: post) pre (r :: post)); reflexivity.
    + apply (build_more_places rest [] l (0 + N.of_nat (length l)) (blen l)) in H; auto.
      cbn [app length line_start]. rewrite blen_bytes. destruct rest; cbn [line_start]; lia.
Qed.

(** * The index *)

Lemma put_first_index t i ln col off k s :
  (forall s, sfx s (k (i + N.of_nat (length t))) ->
     p_i (getpos s) + N.of_nat (clen s) = i + N.of_nat (length t) + N.of_nat (clen (k (i + N.of_nat (length t))))) ->
  sfx s (put_first t i ln col off k) ->
  p_i (getpos s) + N.of_nat (clen s) = i + N.of_nat (clen (put_first t i ln col off k)).
Proof.
  revert i col off; induction t as [|r t IH]; intros i col off Hk H; cbn [put_first length] in *.
  - replace (i + N.of_nat 0) with i in Hk by lia. auto.
  - replace (i + N.of_nat (S (length t))) with (i + 1 + N.of_nat (length t)) in Hk by lia.
    inversion H; subst.
    + cbn [getpos p_i clen]. lia.
    + cbn [clen]. rewrite (IH _ _ _ Hk H2). lia.
Qed.
Lemma put_cont_index t i ln col k s :
  (forall s, sfx s (k (i + N.of_nat (length t))) ->
     p_i (getpos s) + N.of_nat (clen s) = i + N.of_nat (length t) + N.of_nat (clen (k (i + N.of_nat (length t))))) ->
  sfx s (put_cont t i ln col k) ->
  p_i (getpos s) + N.of_nat (clen s) = i + N.of_nat (clen (put_cont t i ln col k)).
Proof.
  revert i col; induction t as [|r t IH]; intros i col Hk H; cbn [put_cont length] in *.
  - replace (i + N.of_nat 0) with i in Hk by lia. auto.
  - replace (i + N.of_nat (S (length t))) with (i + 1 + N.of_nat (length t)) in Hk by lia.
    inversion H; subst.
    + cbn [getpos p_i clen]. lia.
    + cbn [clen]. rewrite (IH _ _ Hk H2). lia.
Qed.
Lemma build_more_index : forall rest i ln col off s, sfx s (build_more rest i ln col off) ->
  p_i (getpos s) + N.of_nat (clen s) = i + N.of_nat (clen (build_more rest i ln col off)).
Proof.
  induction rest as [|l rest IH]; intros i ln col off s H; cbn [build_more] in *.
  - inversion H; subst; [cbn [getpos p_i clen]; lia|]. inversion H2; subst. cbn [getpos p_i clen]. lia.
  - destruct (re_continuation l).
    + destruct (skip_backslash l 0) as [t c]. apply put_cont_index; auto.
    + inversion H; subst. cbn [getpos p_i clen]; lia.
      apply put_first_index in H2; [cbn [clen]; rewrite H2; lia|]. auto.
Qed.
(** The index of a place is the number of cells in front of it. *)
Lemma reader_index lines s : sfx s (new_reader lines) ->
  p_i (getpos s) = N.of_nat (clen (new_reader lines) - clen s).
Proof.
  intros H. pose proof (sfx_clen _ _ H) as Hl.
  assert (K : p_i (getpos s) + N.of_nat (clen s) = 0 + N.of_nat (clen (new_reader lines))); [|lia].
  destruct lines as [|l rest]; cbn [new_reader] in *.
  - inversion H; subst. reflexivity.
  - apply put_first_index; auto. intros. apply build_more_index; auto.
Qed.

(** * Logical lines *)

Lemma view_put_first t i ln col off k :
  view (put_first t i ln col off k) = piece_cells ln col t ++ view (k (i + N.of_nat (length t))).
Proof.
  revert i col off; induction t as [|r t IH]; intros i col off; cbn [put_first view piece_cells app length].
  - replace (i + N.of_nat 0) with i by lia. auto.
  - rewrite IH. cbn [p_lnum p_col]. do 4 f_equal. lia.
Qed.
Lemma view_put_cont t i ln col k :
  view (put_cont t i ln col k) = piece_cells ln col t ++ view (k (i + N.of_nat (length t))).
Proof.
  revert i col; induction t as [|r t IH]; intros i col; cbn [put_cont view piece_cells app length].
  - replace (i + N.of_nat 0) with i by lia. auto.
  - rewrite IH. cbn [p_lnum p_col]. do 4 f_equal. lia.
Qed.

Definition pieces_cells (ps : list piece) : list (cell * N * N) :=
  flat_map (fun p => match p with (n, col, t) => piece_cells n col t end) ps.

Lemma view_build : forall rest l i ln off,
  exists ps e rest' more, pieces ln l rest ps e rest' /\ logical (fst e + 1) rest' more /\
    view (build_more rest i ln (blen l) off) =
      pieces_cells ps ++ (EOL, fst e, snd e) :: flat_map logical_cells more.
Proof.
  induction rest as [|l2 rest IH]; intros l i ln off; cbn [build_more].
  - exists [], (ln, bytes l + 1), [], []. split; [|split].
    + constructor. discriminate.
    + constructor.
    + cbn. rewrite blen_bytes. reflexivity.
  - destruct (re_continuation l2) eqn:Ec.
    + apply continuation_iff in Ec. destruct Ec as [ws [t [El Ew]]].
      assert (Hws := spaces_no_backslash _ Ew).
      pose proof (skip_backslash_spec ws t 0 Hws) as Hsk. rewrite <- El in Hsk. rewrite Hsk.
      rewrite view_put_cont.
      destruct (IH l2 (i + N.of_nat (length t)) (ln + 1) (off + blen l2 + 1))
        as [ps [e [rest' [more [H1 [H2 H3]]]]]].
      exists ((ln + 1, bytes ws + 1, t) :: ps), e, rest', more. split; [|split; auto].
      * apply pc_cont; auto. split; auto.
      * rewrite H3. unfold pieces_cells. cbn [flat_map]. rewrite <- app_assoc.
        replace (0 + bytes ws + 1) with (bytes ws + 1) by lia. reflexivity.
    + assert (Hn : ~ is_continuation l2) by (rewrite <- continuation_iff; congruence).
      cbn [view]. rewrite view_put_first.
      destruct (IH l2 (i + 1 + N.of_nat (length l2)) (ln + 1) (off + 1 + blen l2))
        as [ps [e [rest' [more [H1 [H2 H3]]]]]].
      exists [], (ln, bytes l + 1), (l2 :: rest), (((ln + 1, 0, l2) :: ps, e) :: more).
      split; [|split].
      * constructor. intros l' r E. inversion E; subst; auto.
      * cbn [fst]. eapply lg_line; eauto.
      * rewrite H3. cbn [pieces_cells flat_map app fst snd p_lnum p_col]. rewrite blen_bytes.
        f_equal. unfold logical_cells. cbn [fst snd flat_map]. rewrite <- !app_assoc. reflexivity.
Qed.

Lemma reader_logical lines : exists ls, logical 1 lines ls /\
  view (new_reader lines) = flat_map logical_cells ls.
Proof.
  destruct lines as [|l rest]; cbn [new_reader].
  - exists []. split; constructor.
  - rewrite view_put_first.
    destruct (view_build rest l (0 + N.of_nat (length l)) 1 (blen l)) as [ps [e [rest' [more [H1 [H2 H3]]]]]].
    exists (((1, 0, l) :: ps, e) :: more). split. eapply lg_line; eauto.
    rewrite H3. cbn [flat_map]. unfold logical_cells at 2. cbn [fst snd flat_map].
    rewrite <- !app_assoc. reflexivity.
Qed.

(** * Order of positions *)

Definition pos_lt (p q : pos) : Prop :=
  p_lnum p < p_lnum q \/ (p_lnum p = p_lnum q /\ p_col p < p_col q).
Lemma pos_lt_trans p q r : pos_lt p q -> pos_lt q r -> pos_lt p r.
Proof. unfold pos_lt. lia. Qed.

(** [after n col c]: all cells of [c] are after column [col] of line [n]. *)
Definition after (n col : N) (c : cursor) : Prop :=
  forall s, sfx s c -> n < p_lnum (getpos s) \/ (n = p_lnum (getpos s) /\ col < p_col (getpos s)).
Fixpoint sorted (c : cursor) : Prop :=
  match c with Eof _ => True | Cons _ p t => after (p_lnum p) (p_col p) t /\ sorted t end.

Lemma after_cons n col x p t : after (p_lnum p) (p_col p) t ->
  (n < p_lnum p \/ (n = p_lnum p /\ col < p_col p)) -> after n col (Cons x p t).
Proof.
  intros H1 H2 s H. inversion H; subst; cbn [getpos]; auto. apply H1 in H4. lia.
Qed.
Lemma after_le n col n' col' c : after n col c -> (n' < n \/ (n' = n /\ col' <= col)) -> after n' col' c.
Proof. intros H1 H2 s Hs. apply H1 in Hs. lia. Qed.

Lemma put_first_sorted t i ln col off k :
  (forall i, after ln (col + bytes t) (k i) /\ sorted (k i)) ->
  after ln col (put_first t i ln col off k) /\ sorted (put_first t i ln col off k).
Proof.
  revert i col off; induction t as [|r t IH]; intros i col off H; cbn [put_first].
  - rewrite bytes_nil in H. replace (col + 0) with col in H by lia. auto.
  - destruct (IH (i + 1) (col + rune_len r) (off + rune_len r)) as [H1 H2].
    { intros i'. rewrite bytes_cons in H. replace (col + rune_len r + bytes t) with (col + (rune_len r + bytes t)) by lia. auto. }
    pose proof (rune_len_pos r).
    assert (H3 : after ln (col + 1) (put_first t (i + 1) ln (col + rune_len r) (off + rune_len r) k)).
    { eapply after_le; [exact H1|]. lia. }
    split; [apply after_cons; cbn [p_lnum p_col]; auto; lia|]. cbn [sorted p_lnum p_col]. auto.
Qed.
Lemma put_cont_sorted t i ln col k :
  (forall i, after ln (col + bytes t) (k i) /\ sorted (k i)) ->
  after ln col (put_cont t i ln col k) /\ sorted (put_cont t i ln col k).
Proof.
  revert i col; induction t as [|r t IH]; intros i col H; cbn [put_cont].
  - rewrite bytes_nil in H. replace (col + 0) with col in H by lia. auto.
  - destruct (IH (i + 1) (col + rune_len r)) as [H1 H2].
    { intros i'. rewrite bytes_cons in H. replace (col + rune_len r + bytes t) with (col + (rune_len r + bytes t)) by lia. auto. }
    pose proof (rune_len_pos r).
    assert (H3 : after ln (col + 1) (put_cont t (i + 1) ln (col + rune_len r) k)).
    { eapply after_le; [exact H1|]. lia. }
    split; [apply after_cons; cbn [p_lnum p_col]; auto; lia|]. cbn [sorted p_lnum p_col]. auto.
Qed.
Lemma build_more_sorted : forall rest i ln col off,
  after ln col (build_more rest i ln col off) /\ sorted (build_more rest i ln col off).
Proof.
  induction rest as [|l rest IH]; intros i ln col off; cbn [build_more].
  - assert (H : after ln (col + 1) (Eof (mkPos (i + 1) (ln + 1) 0 (off + 1)))).
    { intros s H. inversion H; subst; cbn [getpos p_lnum p_col]. lia. }
    split; [apply after_cons; cbn [p_lnum p_col]; auto; lia|]. cbn [sorted p_lnum p_col]. auto.
  - destruct (re_continuation l) eqn:Ec.
    + apply continuation_iff in Ec. destruct Ec as [ws [t [El Ew]]].
      pose proof (skip_backslash_spec ws t 0 (spaces_no_backslash _ Ew)) as Hsk. rewrite <- El in Hsk. rewrite Hsk.
      destruct (put_cont_sorted t i (ln + 1) (0 + bytes ws + 1)
                 (fun i' => build_more rest i' (ln + 1) (blen l) (off + blen l + 1))) as [H1 H2].
      { intros i'. destruct (IH i' (ln + 1) (blen l) (off + blen l + 1)) as [H1 H2]. split; auto.
        eapply after_le; [exact H1|]. right. split; auto. rewrite blen_bytes, El, bytes_app, bytes_cons.
        change (rune_len 92) with 1. lia. }
      split; auto. eapply after_le; [exact H1|]. lia.
    + destruct (put_first_sorted l (i + 1) (ln + 1) 0 (off + 1)
        (fun i' => build_more rest i' (ln + 1) (blen l) (off + 1 + blen l))) as [H1 H2].
      { intros i'. destruct (IH i' (ln + 1) (blen l) (off + 1 + blen l)) as [H1 H2]. split; auto.
        rewrite blen_bytes in *. replace (0 + bytes l) with (bytes l) by lia. auto. }
      assert (H3 : after ln (col + 1) (put_first l (i + 1) (ln + 1) 0 (off + 1)
        (fun i' => build_more rest i' (ln + 1) (blen l) (off + 1 + blen l)))).
      { eapply after_le; [exact H1|]. lia. }
      split; [apply after_cons; cbn [p_lnum p_col]; auto; lia|]. cbn [sorted p_lnum p_col]. auto.
Qed.
Lemma reader_sorted lines : sorted (new_reader lines).
Proof.
  destruct lines as [|l rest]; cbn [new_reader]. exact I.
  apply put_first_sorted. intros i. replace (0 + bytes l) with (bytes l) by lia.
  rewrite <- blen_bytes. apply build_more_sorted.
Qed.
Lemma sorted_sfx s c : sfx s c -> sorted c -> sorted s.
Proof. induction 1; auto. cbn [sorted]. tauto. Qed.
(** Moving forward moves to a later position. *)
Lemma later c a b : sorted c -> sfx a c -> sfx b a -> (clen b < clen a)%nat -> pos_lt (getpos a) (getpos b).
Proof.
  intros Hs Ha Hb Hl. apply (sorted_sfx _ _ Ha) in Hs. inversion Hb; subst; [lia|].
  cbn [sorted] in Hs. destruct Hs as [H1 _]. exact (H1 _ H).
Qed.
