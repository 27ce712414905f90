(** The index-based reader and the suffix of its buffer; the token cache. *)
From Coq Require Import Lia Arith ZifyBool ZifyNat ZifyN.
From Verif Require Import Base Utf8 CharClass Reader Vnode Tokenizer Cursor ReaderFacts IndexReader.

Lemma nth_skipn {A} (l : list A) : forall i x, nth_error l i = Some x -> skipn i l = x :: skipn (S i) l.
Proof. induction l as [|a l IH]; intros [|i] x H; cbn in *; try discriminate. congruence. apply IH in H. exact H. Qed.

(** * Construction *)
Lemma put_first_ext k k' : (forall i, k i = k' i) -> forall t i ln col off, put_first t i ln col off k = put_first t i ln col off k'.
Proof. intros H. induction t as [|r t IH]; intros; cbn [put_first]; auto. rewrite IH. auto. Qed.
Lemma put_cont_ext k k' : (forall i, k i = k' i) -> forall t i ln col, put_cont t i ln col k = put_cont t i ln col k'.
Proof. intros H. induction t as [|r t IH]; intros; cbn [put_cont]; auto. rewrite IH. auto. Qed.
Lemma init_first lnum : forall l s B Q i,
  exists P, is_pos (fold_left (init_char lnum) l s) = is_pos s ++ P /\ length P = length l /\
    is_buf (fold_left (init_char lnum) l s) = is_buf s ++ map R l /\
    is_col (fold_left (init_char lnum) l s) = is_col s + blen l /\
    is_off (fold_left (init_char lnum) l s) = is_off s + blen l /\
    cursor_from i (map R l ++ B) (P ++ Q) =
      put_first l i (lnum + 1) (is_col s) (is_off s) (fun i' => cursor_from i' B Q).
Proof.
  induction l as [|r l IH]; intros s B Q i.
  - exists []. cbn. rewrite !app_nil_r, !N.add_0_r. auto 7.
  - cbn [fold_left]. destruct (IH (init_char lnum s r) B Q (i + 1)) as [P [H1 [H2 [H3 [H4 [H5 H6]]]]]].
    exists (mkPos 0 (lnum + 1) (is_col s + 1) (is_off s) :: P). rewrite H1, H3, H4, H5. cbn [init_char is_buf is_pos is_col is_off map].
    rewrite <- !app_assoc. cbn [app length blen cursor_from]. rewrite H6, H2. cbn [init_char is_col is_off put_first].
    rewrite !N.add_assoc. auto 7.
Qed.

Lemma init_cont lnum : forall l s B Q i,
  let s' := snd (fold_left (init_cont_char lnum) l (false, s)) in
  exists P, is_pos s' = is_pos s ++ P /\ length P = length l /\
    is_buf s' = is_buf s ++ map R l /\ is_col s' = is_col s + blen l /\ is_off s' = is_off s + blen l /\
    cursor_from i (map R l ++ B) (P ++ Q) =
      put_cont l i (lnum + 2) (is_col s) (fun i' => cursor_from i' B Q).
Proof.
  induction l as [|r l IH]; intros s B Q i s'; subst s'.
  - exists []. cbn. rewrite !app_nil_r, !N.add_0_r. auto 7.
  - cbn [fold_left init_cont_char].
    match goal with |- context [fold_left _ l (false, ?x)] => destruct (IH x B Q (i + 1)) as [P [H1 [H2 [H3 [H4 [H5 H6]]]]]] end.
    exists (mkPos 0 (lnum + 2) (is_col s + 1) 0 :: P). rewrite H1, H3, H4, H5. cbn [is_buf is_pos is_col is_off map].
    rewrite <- !app_assoc. cbn [app length blen cursor_from]. rewrite H6, H2. cbn [is_col is_off put_cont].
    rewrite !N.add_assoc. auto 7.
Qed.

Lemma init_skip lnum : forall l s B Q i,
  let s' := snd (fold_left (init_cont_char lnum) l (true, s)) in
  let '(t, c) := skip_backslash l (is_col s) in
  exists P, is_pos s' = is_pos s ++ P /\ length P = length t /\
    is_buf s' = is_buf s ++ map R t /\ is_col s' = is_col s + blen l /\ is_off s' = is_off s + blen l /\
    cursor_from i (map R t ++ B) (P ++ Q) =
      put_cont t i (lnum + 2) c (fun i' => cursor_from i' B Q).
Proof.
  induction l as [|r l IH]; intros s B Q i s'; subst s'.
  - exists []. cbn. rewrite !app_nil_r, !N.add_0_r. auto 7.
  - cbn [fold_left init_cont_char skip_backslash]. destruct (r =? 92); cbn [negb].
    + match goal with |- context [fold_left _ l (false, ?x)] => destruct (init_cont lnum l x B Q i) as [P [H1 [H2 [H3 [H4 [H5 H6]]]]]] end.
      exists P. rewrite H1, H3, H4, H5, H6. cbn [is_buf is_pos is_col is_off blen]. rewrite !N.add_assoc. auto 7.
    + match goal with |- context [fold_left _ l (true, ?x)] => specialize (IH x B Q i); cbn [is_col] in IH end.
      destruct (skip_backslash l (is_col s + rune_len r)) as [t c]. destruct IH as [P [H1 [H2 [H3 [H4 [H5 H6]]]]]].
      exists P. rewrite H1, H3, H4, H5, H6. cbn [is_buf is_pos is_col is_off blen]. rewrite !N.add_assoc. auto 7.
Qed.

(** What the loops append for the rest of the lines, from the situation of [build_more]. *)
Lemma init_rest : forall fuel lines lnum s,
  (length lines <= fuel)%nat ->
  exists B P E,
    (let '(rest', lnum', s2) := init_conts lines lnum s in
     let '(ln, s3) := init_lines fuel rest' (lnum' + 1)
        (mkInit (is_buf s2 ++ [EOL]) (is_pos s2 ++ [mkPos 0 (lnum' + 1) (is_col s2 + 1) (is_off s2)]) (is_col s2) (is_off s2 + 1)) in
     is_buf s3 = is_buf s ++ B /\ is_pos s3 = is_pos s ++ P /\ E = mkPos 0 (ln + 1) 0 (is_off s3)) /\
    length P = length B /\ forall i, cursor_from i B (P ++ [E]) = build_more lines i (lnum + 1) (is_col s) (is_off s).
Proof.
  induction fuel as [fuel IHf] using (well_founded_induction lt_wf).
  induction lines as [|l lines IH]; intros lnum s Hf.
  - cbn [init_conts]. exists [EOL], [mkPos 0 (lnum + 1) (is_col s + 1) (is_off s)], (mkPos 0 (lnum + 2) 0 (is_off s + 1)).
    destruct fuel; cbn [init_lines is_buf is_pos is_off build_more app cursor_from with_index p_lnum p_col p_off length];
      (split; [split; [reflexivity|split; [reflexivity|f_equal; lia]]|split; [reflexivity|intros i; replace (lnum + 1 + 1) with (lnum + 2) by lia; reflexivity]]).
  - cbn [init_conts build_more]. destruct (re_continuation l).
    + set (s0 := mkInit (is_buf s) (is_pos s) 0 (is_off s)).
      set (s1 := snd (fold_left (init_cont_char lnum) l (true, s0))).
      destruct (IH (lnum + 1) (mkInit (is_buf s1) (is_pos s1) (is_col s1) (is_off s1 + 1))) as [B [P [E [H1 [H2 H3]]]]]; [cbn in Hf; lia|].
      pose proof (init_skip lnum l s0 B (P ++ [E])) as K. cbn zeta in K. fold s1 in K. cbn [is_col] in K. subst s0. cbn [is_col is_off is_buf is_pos] in *.
      destruct (skip_backslash l 0) as [t c] eqn:Es.
      destruct (K 0) as [P0 [K1 [K2 [K3 [K4 [K5 _]]]]]].
      exists (map R t ++ B), (P0 ++ P), E. split; [|split].
      * destruct (init_conts lines (lnum + 1) _) as [[rest' lnum'] s2]. destruct (init_lines _ _ _ _) as [ln s3].
        rewrite K1, K3 in H1. rewrite !app_assoc. exact H1.
      * rewrite !app_length, map_length, H2, K2. reflexivity.
      * intros i. destruct (K i) as [P1 [L1 [L2 [L3 [L4 [L5 L6]]]]]]. assert (P1 = P0) by (rewrite K1 in L1; apply app_inv_head in L1; auto). subst P1.
        rewrite <- !app_assoc, L6. replace (lnum + 1 + 1) with (lnum + 2) by lia.
        apply put_cont_ext. intros i'. rewrite H3, K4, K5. f_equal; lia.
    + destruct fuel as [|fuel]; [cbn in Hf; lia|]. cbn [init_lines is_buf is_pos is_off].
      set (s0 := mkInit (is_buf s ++ [EOL]) (is_pos s ++ [mkPos 0 (lnum + 1) (is_col s + 1) (is_off s)]) 0 (is_off s + 1)).
      set (s1 := fold_left (init_char (lnum + 1)) l s0).
      destruct (IHf fuel (Nat.lt_succ_diag_r _) lines (lnum + 1) s1) as [B [P [E [H1 [H2 H3]]]]]; [cbn in Hf; lia|].
      pose proof (init_first (lnum + 1) l s0 B (P ++ [E])) as K. fold s1 in K.
      destruct (K 0) as [P0 [K1 [K2 [K3 [K4 [K5 _]]]]]]. subst s0. cbn [is_col is_off is_buf is_pos] in *.
      exists (EOL :: map R l ++ B), (mkPos 0 (lnum + 1) (is_col s + 1) (is_off s) :: P0 ++ P), E. split; [|split].
      * destruct (init_conts lines (lnum + 1) s1) as [[rest' lnum'] s2]. destruct (init_lines _ _ _ _) as [ln s3].
        rewrite K1, K3, <- !app_assoc in H1. exact H1.
      * cbn [length]. rewrite !app_length, map_length, H2, K2. reflexivity.
      * intros i. destruct (K (i + 1)) as [P1 [L1 [L2 [L3 [L4 [L5 L6]]]]]]. assert (P1 = P0) by (rewrite K1 in L1; apply app_inv_head in L1; auto). subst P1.
        cbn [app cursor_from with_index p_lnum p_col p_off]. rewrite <- !app_assoc, L6. f_equal.
        apply put_first_ext. intros i'. rewrite H3, K4, K5. f_equal; lia.
Qed.

(** The reader is well formed: one position more than cells, the index inside. *)
Definition ok (r : sreader) : Prop :=
  length (sr_pos r) = S (length (sr_buf r)) /\ (sr_i r <= length (sr_buf r))%nat.

Lemma init_ok lines : suffix (init_reader lines) = new_reader lines /\ ok (init_reader lines).
Proof.
  unfold init_reader, suffix, ok. destruct lines as [|l lines].
  - cbn. auto.
  - cbn [length init_lines new_reader is_buf is_pos is_off]. set (s1 := fold_left (init_char 0) l (mkInit [] [] 0 0)).
    destruct (init_rest (length lines) lines 0 s1) as [B [P [E [H1 [H2 H3]]]]]; [lia|].
    pose proof (init_first 0 l (mkInit [] [] 0 0) B (P ++ [E]) 0) as K. cbn [is_buf is_pos is_col is_off] in K. fold s1 in K.
    destruct K as [P0 [K1 [K2 [K3 [K4 [K5 K6]]]]]]. destruct (init_conts lines 0 s1) as [[rest' lnum'] s2].
    destruct (init_lines _ _ _ _) as [ln s3]. destruct H1 as [A1 [A2 A3]]. cbn [sr_i sr_pos sr_buf skipn N.of_nat].
    rewrite A1, A2, K1, K3. cbn [app]. rewrite <- A3. rewrite <- !app_assoc, K6. split.
    + apply put_first_ext. intros i. rewrite H3, K4, K5. f_equal; lia.
    + rewrite !app_length, map_length. cbn [length]. lia.
Qed.

(** * The methods *)
Lemma suffix_cons r : ok r -> (sr_i r < length (sr_buf r))%nat ->
  exists x p, nth_error (sr_buf r) (sr_i r) = Some x /\ nth_error (sr_pos r) (sr_i r) = Some p /\
    suffix r = Cons x (with_index (N.of_nat (sr_i r)) p) (suffix (set_i (S (sr_i r)) r)) /\ ok (set_i (S (sr_i r)) r).
Proof.
  intros [H1 H2] H. destruct (nth_error (sr_buf r) (sr_i r)) as [x|] eqn:Ex; [|apply nth_error_None in Ex; lia].
  destruct (nth_error (sr_pos r) (sr_i r)) as [p|] eqn:Ep; [|apply nth_error_None in Ep; lia].
  exists x, p. split; auto. split; auto. split; [|split; cbn; lia]. unfold suffix. rewrite (nth_skipn _ _ _ Ex), (nth_skipn _ _ _ Ep).
  cbn [cursor_from set_i sr_i sr_pos sr_buf]. do 2 f_equal. lia.
Qed.
Lemma suffix_end r : ok r -> (length (sr_buf r) <= sr_i r)%nat ->
  exists p, nth_error (sr_pos r) (sr_i r) = Some p /\ suffix r = Eof (with_index (N.of_nat (sr_i r)) p).
Proof.
  intros [H1 H2] H. destruct (nth_error (sr_pos r) (sr_i r)) as [p|] eqn:Ep; [|apply nth_error_None in Ep; lia].
  exists p. split; auto. unfold suffix. rewrite (nth_skipn _ _ _ Ep), skipn_all2 by lia. reflexivity.
Qed.
Lemma suffix_clen : forall n r, ok r -> (length (sr_buf r) - sr_i r <= n)%nat -> clen (suffix r) = (length (sr_buf r) - sr_i r)%nat.
Proof.
  induction n as [|n IH]; intros r Hr Hn; destruct (le_lt_dec (length (sr_buf r)) (sr_i r)) as [L|L].
  - destruct (suffix_end r Hr L) as [p [_ ->]]. cbn. lia.
  - lia.
  - destruct (suffix_end r Hr L) as [p [_ ->]]. cbn. lia.
  - destruct (suffix_cons r Hr L) as [x [p [_ [_ [-> K]]]]]. cbn [clen]. rewrite IH; auto; cbn [set_i sr_i sr_buf]; lia.
Qed.
Lemma place_suffix r : ok r -> place r (suffix r) = sr_i r.
Proof. intros H. unfold place. rewrite (suffix_clen _ r H (le_n _)). destruct H. lia. Qed.

Ltac at_index r Hr :=
  destruct (le_lt_dec (length (sr_buf r)) (sr_i r)) as [L|L];
  [destruct (suffix_end r Hr L) as [p [Ep Es]]|destruct (suffix_cons r Hr L) as [x [p [Ex [Ep [Es Hs]]]]]].

Lemma getpos_ok r : ok r -> i_getpos r = Ok (getpos (suffix r)).
Proof. intros Hr. unfold i_getpos. at_index r Hr; rewrite Es, Ep; reflexivity. Qed.
Lemma eof_ok r : ok r -> i_eof r = is_eof (suffix r).
Proof. intros Hr. unfold i_eof. at_index r Hr; rewrite Es; cbn [is_eof]. apply Nat.leb_le; auto. apply Nat.leb_gt; auto. Qed.
Lemma peek_ok r : ok r -> i_peek r = Ok (peek (suffix r)).
Proof. intros Hr. unfold i_peek, i_at. rewrite (eof_ok r Hr). at_index r Hr; rewrite Es; cbn [is_eof peek]; auto. rewrite Ex. auto. Qed.
Lemma at_ok : forall k r, ok r -> i_at (sr_i r + k) r = buf_at k (suffix r).
Proof.
  induction k as [|k IH]; intros r Hr; at_index r Hr; rewrite Es; cbn [buf_at]; unfold i_at.
  - replace (nth_error (sr_buf r) (sr_i r + 0)) with (@None cell); auto. symmetry. apply nth_error_None. lia.
  - rewrite Nat.add_0_r, Ex. auto.
  - replace (nth_error (sr_buf r) (sr_i r + S k)) with (@None cell); auto. symmetry. apply nth_error_None. lia.
  - rewrite <- (IH _ Hs). unfold i_at. cbn [set_i sr_i sr_buf]. replace (S (sr_i r) + k)%nat with (sr_i r + S k)%nat by lia. auto.
Qed.
Lemma p_ok k r : ok r -> i_p k r = p_ k (suffix r).
Proof.
  intros Hr. unfold i_p. rewrite (eof_ok r Hr), (at_ok k r Hr). destruct (suffix r); reflexivity.
Qed.
Lemma get_ok r : ok r -> exists r', i_get r = Ok (fst (get (suffix r)), r') /\ suffix r' = snd (get (suffix r)) /\ ok r'.
Proof.
  intros Hr. unfold i_get. rewrite (eof_ok r Hr). at_index r Hr; rewrite Es; cbn [is_eof get fst snd].
  - exists r. rewrite Es. auto.
  - unfold i_at. rewrite Ex. cbn [bind]. rewrite Nat.add_1_r. eauto.
Qed.
Lemma seek_cur_ok : forall k r, ok r ->
  if Nat.leb (sr_i r + k) (length (sr_buf r)) then seek_cur k (suffix r) = Ok (suffix (i_seek_cur k r)) /\ ok (i_seek_cur k r)
  else exists e, seek_cur k (suffix r) = Panic e.
Proof.
  unfold i_seek_cur. induction k as [|k IH]; intros r Hr.
  - rewrite Nat.add_0_r. destruct Hr as [H1 H2]. apply Nat.leb_le in H2 as H3. rewrite H3. cbn [seek_cur]. destruct r; cbn. split; auto. split; auto.
  - at_index r Hr; rewrite Es; cbn [seek_cur].
    + replace (Nat.leb (sr_i r + S k) (length (sr_buf r))) with false. eauto. symmetry. apply Nat.leb_gt. lia.
    + specialize (IH _ Hs). cbn [set_i sr_i sr_buf sr_pos] in *. rewrite <- Nat.add_succ_comm. exact IH.
Qed.
Lemma seek_end_ok : forall n r, ok r -> (length (sr_buf r) - sr_i r <= n)%nat ->
  suffix (i_seek_end 0 r) = seek_end0 (suffix r) /\ ok (i_seek_end 0 r).
Proof.
  unfold i_seek_end. induction n as [|n IH]; intros r Hr Hn; at_index r Hr; try lia.
  1,2: rewrite Es; cbn [seek_end0]; rewrite <- Es; rewrite Nat.add_0_r; replace (length (sr_buf r)) with (sr_i r) by (destruct Hr; lia);
    destruct r; cbn in *; split; auto.
  rewrite Es. cbn [seek_end0]. destruct (IH _ Hs) as [K1 K2]; [cbn; lia|]. cbn [set_i sr_i sr_buf sr_pos] in *. auto.
Qed.

Lemma getn_loop_ok : forall fuel m r acc j, ok r -> (length (sr_buf r) - sr_i r <= fuel)%nat ->
  exists r', i_getn_loop fuel (Some (j + m)%nat) j r acc = (acc ++ fst (getn m (suffix r)), r') /\
    suffix r' = snd (getn m (suffix r)) /\ ok r' /\ sr_buf r' = sr_buf r /\ sr_pos r' = sr_pos r.
Proof.
  induction fuel as [|fuel IH]; intros m r acc j Hr Hf; cbn [i_getn_loop].
  - at_index r Hr; [|lia]. exists r. rewrite Es. destruct m; cbn [getn fst snd]; rewrite app_nil_r; auto.
  - destruct m as [|m].
    + replace (Nat.ltb j (j + 0)) with false by (symmetry; apply Nat.ltb_ge; lia). rewrite andb_false_r.
      exists r. cbn [getn fst snd]. rewrite app_nil_r. auto.
    + replace (Nat.ltb j (j + S m)) with true by (symmetry; apply Nat.ltb_lt; lia). rewrite andb_true_r.
      at_index r Hr; rewrite Es; cbn [getn].
      * replace (Nat.ltb (sr_i r) (length (sr_buf r))) with false by (symmetry; apply Nat.ltb_ge; lia).
        exists r. cbn [fst snd]. rewrite app_nil_r. auto.
      * replace (Nat.ltb (sr_i r) (length (sr_buf r))) with true by (symmetry; apply Nat.ltb_lt; lia). rewrite Ex.
        destruct x as [|y]; [exists r; cbn [fst snd]; rewrite app_nil_r; auto|].
        rewrite Nat.add_1_r. destruct (IH m _ (acc ++ [y]) (S j) Hs) as [r' [K1 [K2 [K3 [K4 K5]]]]]; [cbn; lia|].
        exists r'. replace (j + S m)%nat with (S j + m)%nat by lia. rewrite K1.
        destruct (getn m (suffix (set_i (S (sr_i r)) r))) as [s c]. cbn [fst snd] in *. rewrite <- app_assoc. auto.
Qed.
Lemma getn_ok n r : ok r -> exists r', i_getn (Some n) r = (fst (getn n (suffix r)), r') /\
  suffix r' = snd (getn n (suffix r)) /\ ok r' /\ sr_buf r' = sr_buf r /\ sr_pos r' = sr_pos r.
Proof. intros Hr. exact (getn_loop_ok _ n r [] 0 Hr (le_n _)). Qed.
Lemma getn_all_loop_ok : forall fuel r acc j, ok r -> (length (sr_buf r) - sr_i r <= fuel)%nat ->
  exists r', i_getn_loop fuel None j r acc = (acc ++ fst (getn_all (suffix r)), r') /\
    suffix r' = snd (getn_all (suffix r)) /\ ok r' /\ sr_buf r' = sr_buf r /\ sr_pos r' = sr_pos r.
Proof.
  induction fuel as [|fuel IH]; intros r acc j Hr Hf; cbn [i_getn_loop].
  - at_index r Hr; [|lia]. exists r. rewrite Es. cbn [getn_all fst snd]; rewrite app_nil_r; auto.
  - rewrite andb_true_r. at_index r Hr; rewrite Es; cbn [getn_all].
    + replace (Nat.ltb (sr_i r) (length (sr_buf r))) with false by (symmetry; apply Nat.ltb_ge; lia).
      exists r. cbn [fst snd]. rewrite app_nil_r. auto.
    + replace (Nat.ltb (sr_i r) (length (sr_buf r))) with true by (symmetry; apply Nat.ltb_lt; lia). rewrite Ex.
      destruct x as [|y]; [exists r; cbn [fst snd]; rewrite app_nil_r; auto|].
      rewrite Nat.add_1_r. destruct (IH _ (acc ++ [y]) (S j) Hs) as [r' [K1 [K2 [K3 [K4 K5]]]]]; [cbn; lia|].
      exists r'. rewrite K1. destruct (getn_all (suffix (set_i (S (sr_i r)) r))) as [s c]. cbn [fst snd] in *. rewrite <- app_assoc. auto.
Qed.
Lemma getn_all_ok r : ok r -> exists r', i_getn None r = (fst (getn_all (suffix r)), r') /\
  suffix r' = snd (getn_all (suffix r)) /\ ok r'.
Proof. intros Hr. destruct (getn_all_loop_ok _ r [] 0 Hr (le_n _)) as [r' [K1 [K2 [K3 _]]]]. exists r'. auto. Qed.
Lemma readline_ok r : ok r -> exists r', i_readline r = Ok (fst (readline (suffix r)), r') /\
  suffix r' = snd (readline (suffix r)) /\ ok r'.
Proof.
  intros Hr. unfold i_readline, readline. destruct (getn_all_ok r Hr) as [r1 [-> [K2 K3]]].
  destruct (getn_all (suffix r)) as [s c]. cbn [fst snd] in *. destruct (get_ok r1 K3) as [r2 [-> [K4 K5]]]. cbn [bind fst snd].
  exists r2. rewrite K4, K2. auto.
Qed.
Lemma getstr_ok : forall n i r acc, (i <= length (sr_buf r))%nat -> length (sr_pos r) = S (length (sr_buf r)) ->
  i_getstr_loop n i r acc = acc ++ getstr_n n (suffix (set_i i r)).
Proof.
  induction n as [|n IH]; intros i r acc Hi Hp; cbn [i_getstr_loop getstr_n]; [rewrite app_nil_r; auto|].
  assert (Hr : ok (set_i i r)) by (split; cbn; auto). at_index (set_i i r) Hr; rewrite Es; cbn [set_i sr_i sr_buf sr_pos] in *.
  - replace (nth_error (sr_buf r) i) with (@None cell) by (symmetry; apply nth_error_None; lia). rewrite app_nil_r. auto.
  - rewrite Ex. rewrite IH by (auto; lia). rewrite <- app_assoc. cbn [app]. reflexivity.
Qed.

Lemma read_loop_ok f : forall fuel r acc, ok r -> (length (sr_buf r) - sr_i r < fuel)%nat ->
  exists r', i_read_loop fuel f r acc = (acc ++ fst (read_while f (suffix r)), r') /\
    suffix r' = snd (read_while f (suffix r)) /\ ok r'.
Proof.
  induction fuel as [|fuel IH]; intros r acc Hr Hf; [lia|]. cbn [i_read_loop]. unfold i_peekn.
  destruct (getn_ok 1 r Hr) as [r1 [E1 [E2 [E3 [E4 E5]]]]]. rewrite E1. cbn [fst].
  at_index r Hr; rewrite Es in *; cbn [getn read_while fst snd] in *.
  - exists r. rewrite app_nil_r, Es. auto.
  - destruct x as [|y]; cbn [fst snd] in *. exists r. rewrite app_nil_r, Es. auto.
    destruct (f y) eqn:Ef; [|exists r; cbn [fst snd]; rewrite app_nil_r, Es; auto].
    assert (Ei : sr_i r1 = S (sr_i r)).
    { pose proof (suffix_clen _ r1 E3 (le_n _)) as A1. pose proof (suffix_clen _ _ Hs (le_n _)) as A2. rewrite E2 in A1. rewrite A2 in A1.
      cbn [set_i sr_i sr_buf] in A1. destruct E3, Hs. cbn [set_i sr_i sr_buf] in *. rewrite E4 in *. lia. }
    destruct (IH r1 (acc ++ [y]) E3) as [r' [K1 [K2 K3]]]; [rewrite E4, Ei; lia|]. exists r'. rewrite K1, K2, E2.
    destruct (read_while f (suffix (set_i (S (sr_i r)) r))). cbn [fst snd]. rewrite <- app_assoc. auto.
Qed.
Lemma read_while_ok f r : ok r -> exists r', i_read_while f r = (fst (read_while f (suffix r)), r') /\
  suffix r' = snd (read_while f (suffix r)) /\ ok r'.
Proof. intros Hr. apply (read_loop_ok f _ r []); auto. Qed.
Lemma skip_loop_ok f : forall fuel r, ok r -> (length (sr_buf r) - sr_i r < fuel)%nat ->
  let r' := i_skip_loop fuel f r in
  suffix r' = skip_while f (suffix r) /\ ok r' /\ sr_buf r' = sr_buf r /\ sr_pos r' = sr_pos r.
Proof.
  induction fuel as [|fuel IH]; intros r Hr Hf; [lia|]. cbn [i_skip_loop]. unfold i_peekn.
  destruct (getn_ok 1 r Hr) as [r1 [E1 [E2 [E3 [E4 E5]]]]]. rewrite E1. cbn [fst]. unfold skip_while in *.
  at_index r Hr; rewrite Es in *; cbn [getn read_while fst snd] in *.
  - rewrite Es. auto.
  - destruct x as [|y]; cbn [fst snd] in *. rewrite Es. auto.
    destruct (f y) eqn:Ef; [|cbn [fst snd]; rewrite Es; auto].
    unfold i_seek_cur. rewrite Nat.add_1_r.
    destruct (IH _ Hs) as [K1 [K2 [K3 K4]]]; [cbn; lia|]. rewrite K1. cbn [set_i sr_buf sr_pos] in *.
    destruct (read_while f (suffix (set_i (S (sr_i r)) r))). cbn [fst snd]. auto.
Qed.
Lemma skip_while_ok f r : ok r -> let r' := i_skip_while f r in
  suffix r' = skip_while f (suffix r) /\ ok r' /\ sr_buf r' = sr_buf r /\ sr_pos r' = sr_pos r.
Proof. intros Hr. apply skip_loop_ok; auto. Qed.

(** Every suffix of the suffix is the suffix at its place. *)
Lemma suffix_sfx r c : ok r -> sfx c (suffix r) -> c = suffix (set_i (place r c) r) /\ (place r c <= length (sr_buf r))%nat.
Proof.
  intros Hr H. remember (suffix r) as d eqn:E. revert r Hr E. induction H as [c|c y q t H IH]; intros r Hr E.
  - subst c. rewrite place_suffix by auto. destruct r; cbn. split; auto. destruct Hr; auto.
  - at_index r Hr; rewrite Es in E; [discriminate|]. injection E as _ _ Et.
    destruct (IH _ Hs Et) as [K1 K2]. unfold place in *. cbn [set_i sr_buf sr_i sr_pos] in *. auto.
Qed.

(** * The token cache *)
Definition sound_cache (r : sreader) (m : tcache) : Prop :=
  forall k j t, cache_find k m = Some (j, t) -> plain_at r k = Ok (t, j) /\ (j <= length (sr_buf r))%nat.

Lemma plain_step r i : length (sr_pos r) = S (length (sr_buf r)) -> (i <= length (sr_buf r))%nat ->
  plain_at r i = let* '(t, r1) := i_get2 (i_skip_while iswhite (set_i i r)) in Ok (t, sr_i r1).
Proof.
  intros Hp Hi. assert (Hr : ok (set_i i r)) by (split; cbn; auto).
  destruct (skip_while_ok iswhite _ Hr) as [K1 [K2 [K3 K4]]]. unfold plain_at, i_get2, tget, skip_white. rewrite K1.
  destruct (get2 _) as [[t c]| | |]; cbn [bind]; auto. cbn [set_i sr_i]. unfold place. rewrite K3. cbn [set_i sr_buf]. auto.
Qed.
Lemma get2_place r t r1 : ok r -> i_get2 r = Ok (t, r1) -> sr_buf r1 = sr_buf r /\ sr_pos r1 = sr_pos r /\ (sr_i r1 <= length (sr_buf r))%nat.
Proof.
  unfold i_get2. intros Hr H. destruct (get2 (suffix r)) as [[u c]| | |]; cbn [bind] in H; try discriminate.
  injection H as <- <-. cbn [set_i sr_buf sr_pos sr_i]. unfold place. split; auto. split; auto. lia.
Qed.

Lemma cached_get r m i : length (sr_pos r) = S (length (sr_buf r)) -> (i <= length (sr_buf r))%nat -> sound_cache r m ->
  match plain_at r i with
  | Ok (t, j) => exists m', c_get m (set_i i r) = Ok (t, set_i j r, m') /\ sound_cache r m' /\ (j <= length (sr_buf r))%nat
  | PErr e => c_get m (set_i i r) = PErr e
  | Panic k => c_get m (set_i i r) = Panic k
  | OutOfFuel => c_get m (set_i i r) = OutOfFuel
  end.
Proof.
  intros Hp Hi Hm. assert (Hr : ok (set_i i r)) by (split; cbn; auto). unfold c_get, i_tell. cbn [set_i sr_i].
  destruct (cache_find i m) as [[j t]|] eqn:E.
  - destruct (Hm _ _ _ E) as [-> Hj]. exists m. split; auto.
  - rewrite (plain_step r i Hp Hi). pose proof (plain_step r i Hp Hi) as K.
    destruct (skip_while_ok iswhite _ Hr) as [K1 [K2 [K3 K4]]].
    change (mkSR i (sr_pos r) (sr_buf r)) with (set_i i r).
    destruct (i_get2 (i_skip_while iswhite (set_i i r))) as [[t r1]| | |] eqn:E2; cbn [bind] in *; auto.
    destruct (get2_place _ _ _ K2 E2) as [L1 [L2 L3]]. rewrite K3 in L1, L3. rewrite K4 in L2. cbn [set_i sr_buf sr_pos] in *.
    exists ((i, (sr_i r1, t)) :: m). split; [|split; auto].
    + do 3 f_equal. destruct r1; cbn in *. subst. reflexivity.
    + intros k j u H. cbn [cache_find] in H. destruct (Nat.eqb k i) eqn:Ek; [|apply Hm; auto].
      apply Nat.eqb_eq in Ek. subst k. injection H as <- <-. split; auto.
Qed.

Lemma cache_transparent r : length (sr_pos r) = S (length (sr_buf r)) ->
  forall h m i, sound_cache r m -> (i <= length (sr_buf r))%nat ->
  Forall (fun q => match q with QSeek j => (j <= length (sr_buf r))%nat | _ => True end) h ->
  run_cached h m (set_i i r) = run_plain h r i.
Proof.
  intros Hp. induction h as [|q h IH]; intros m i Hm Hi Hh; [reflexivity|]. inversion Hh; subst.
  destruct q as [| |j]; cbn [run_cached run_plain].
  - pose proof (cached_get r m i Hp Hi Hm) as K. destruct (plain_at r i) as [[t j]| | |]; try (rewrite K; reflexivity).
    destruct K as [m' [-> [K2 K3]]]. cbn [bind]. rewrite (IH m' j); auto.
  - unfold c_peek. pose proof (cached_get r m i Hp Hi Hm) as K. destruct (plain_at r i) as [[t j]| | |]; try (rewrite K; reflexivity).
    destruct K as [m' [-> [K2 K3]]]. cbn [bind]. unfold i_tell, i_seek_set.
    change (set_i (sr_i (set_i i r)) (set_i j r)) with (set_i i r). rewrite (IH m' i); auto.
  - unfold i_seek_set. change (set_i j (set_i i r)) with (set_i j r). apply IH; auto.
Qed.
