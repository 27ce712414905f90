(** Command heads as [Head] describes them are read. *)
From Coq Require Import Lia ZifyBool ZifyNat ZifyN.
From Verif Require Import Base CharClass Reader Vnode Tokenizer ExprParser CmdTable CmdParser
  Cursor Grammar TokSafe ExprSafe Script Head CmdBase CmdArgs HeadProof NodeHead WrittenProof WrittenScript ArgsProof FindBack.

(** * Lines *)

Lemma rest_split s c t : rest_of c (s ++ t) -> exists c', spells s c c' /\ rest_of c' t.
Proof. intros H. destruct (getn_rest s c t H) as [c' [_ H1]]. eauto. Qed.
Lemma rest_after s c c' t : rest_of c (s ++ t) -> spells s c c' -> rest_of c' t.
Proof.
  intros H Sp. destruct (rest_split _ _ _ H) as [c1 [S1 R1]]. rewrite (spells_fun _ _ _ _ Sp S1). auto.
Qed.
Lemma rest_nil_end c : rest_of c [] -> at_end c.
Proof. intros [z [H1 H2]]. cbn in H1. subst; auto. Qed.
Lemma skip_rest f s c t : rest_of c (s ++ t) -> forallb f s = true -> starts_with f t = false ->
  spells s c (skip_while f c) /\ rest_of (skip_while f c) t.
Proof. intros H1 H2 H3. destruct (read_rest f s c t H1 H2 H3) as [c1 [E [S1 R1]]]. unfold skip_while. rewrite E. auto. Qed.
Lemma skip_blank w c t : rest_of c (w ++ t) -> all_white w -> starts_with iswhite t = false ->
  spells w c (skip_white c) /\ rest_of (skip_white c) t.
Proof. intros H1 H2 H3. apply all_white_iff in H2. apply (skip_rest iswhite); auto. Qed.

(** * Modifiers *)

Definition modifier_words_ok : bool :=
  forallb (fun x => forallb (fun n => match find_modifier modifier_table (firstn n (fst x)) with Some y => text_eqb y (fst x) | None => false end)
    (seq (snd x) (S (length (fst x)) - snd x))) modifier_names.
Lemma modifier_words : modifier_words_ok = true.
Proof. vm_compute. reflexivity. Qed.
Lemma modifier_back k name : modifier_word k name -> find_modifier modifier_table k = Some name.
Proof.
  intros [m [H1 [[r H2] H3]]]. pose proof modifier_words as W. unfold modifier_words_ok in W. rewrite forallb_forall in W. specialize (W _ H1). cbn [fst snd] in W.
  rewrite forallb_forall in W. specialize (W (length k)). rewrite H2 in W at 2. rewrite firstn_app, firstn_all, Nat.sub_diag in W. cbn [firstn] in W. rewrite app_nil_r in W.
  assert (Hin : In (length k) (seq m (S (length name) - m))). { apply in_seq. rewrite H2, app_length. lia. }
  specialize (W Hin). destruct (find_modifier modifier_table k); [|discriminate]. apply text_eqb_eq in W. congruence.
Qed.

(** The count and the word at the start of a line, as the loop reads them. *)
Definition counted (c : cursor) : text * cursor :=
  if o_in isdigit (peek1 c) then let '(d, c') := read_digit c in (d, skip_white c') else ([], c).
Lemma counted_read c d c1 k c2 t2 : counted c = (d, c1) -> read_alpha c1 = (k, c2) -> rest_of c2 t2 ->
  exists w, spells (d ++ w) c c1 /\ spells k c1 c2 /\ forallb isalpha k = true /\ counted_word d w k t2 /\
    starts_with isdigit (w ++ k ++ t2) = false /\ (starts_with iswhite (k ++ t2) = false \/ d = []).
Proof.
  intros Ed Ek Ht2. unfold read_alpha in Ek. destruct (read_longest _ _ _ _ _ Ek Ht2) as [Sk [Ak Lk]].
  pose proof (rest_app _ _ _ _ Sk Ht2) as Hr1. unfold counted in Ed.
  destruct (o_in isdigit (peek1 c)) eqn:E.
  - unfold read_digit in Ed. destruct (read_while isdigit c) as [d0 c0] eqn:E2.
    inversion Ed; subst d0 c1; clear Ed.
    destruct (skip_longest iswhite c0 (k ++ t2) Hr1) as [w [W1 [W2 W3]]].
    fold (skip_white c0) in *.
    pose proof (rest_app _ _ _ _ W1 Hr1) as Hr0.
    destruct (read_longest _ _ _ _ _ E2 Hr0) as [D1 [D2 D3]].
    exists w. split; [eapply spells_app; eauto|]. split; [auto|]. split; [auto|]. repeat split; auto.
    + apply all_white_iff; auto.
    + intros ->. cbn in D1. subst c0. pose proof (rest_app _ _ _ _ W1 Hr1) as Hc.
      rewrite (o_in_rest _ _ _ Hc) in E. congruence.
  - inversion Ed; subst d c1. exists []. cbn [app]. repeat split; auto.
    + intros r [].
    + rewrite (o_in_rest _ _ _ Hr1) in E. exact E.
Qed.
Lemma counted_back c d w k t : rest_of c (d ++ w ++ k ++ t) -> counted_word d w k t -> forallb isalpha k = true -> k <> [] ->
  exists c1 c2, counted c = (d, c1) /\ read_alpha c1 = (k, c2) /\ spells (d ++ w) c c1 /\ spells k c1 c2 /\ rest_of c2 t.
Proof.
  intros H Hc Hk Hne. destruct (counted c) as [d' c1] eqn:E1. destruct (read_alpha c1) as [k' c2] eqn:E2.
  destruct (rest_exists c2) as [t' Ht']. destruct (counted_read _ _ _ _ _ _ E1 E2 Ht') as [w' [S1 [S2 [A [C1 [C2 C3]]]]]].
  assert (E : d' ++ w' ++ k' ++ t' = d ++ w ++ k ++ t).
  { apply (rest_unique c); auto. rewrite app_assoc. eapply rest_app; eauto. eapply rest_app; eauto. }
  destruct (counted_fun _ _ _ _ _ _ _ _ E C1 A C2 C3 Hc Hk Hne) as [-> [-> [-> ->]]].
  exists c1, c2. auto 10.
Qed.

Lemma str2nr_back d : decimal d <= 2147483647 -> str2nr d = Ok (Z.of_N (decimal d)).
Proof.
  intros H. unfold str2nr. rewrite digits_val_fold. fold (decimal d). apply N.leb_le in H. rewrite H. reflexivity.
Qed.

Lemma modifiers_eq n c : modifiers_loop (S n) c =
    let '(d, c1) := counted c in
    let '(k, c2) := read_alpha c1 in
    let nc := peek1 c2 in
    let c3 := skip_white c2 in
    match find_modifier modifier_table k with
    | None => Ok ([], c)
    | Some name =>
      if text_eqb name (T "hide") && ends_excmds1 nc then Ok ([], c3)
      else
        let* '(m, c4) :=
          (if text_eqb name (T "silent") then
             if o_is nc (C "!") then Ok (mkMod name (Some 1) None, snd (get c3))
             else Ok (mkMod name (Some 0) None, c3)
           else if text_eqb name (T "tab") then
             if is_nil d then Ok (mkMod name None None, c3)
             else let* z := str2nr d in Ok (mkMod name None (Some z), c3)
           else if text_eqb name (T "verbose") then
             if is_nil d then Ok (mkMod name None (Some 1%Z), c3)
             else let* z := str2nr d in Ok (mkMod name None (Some z), c3)
           else Ok (mkMod name None None, c3)) in
        let* '(ms, c5) := modifiers_loop n c4 in
        Ok (m :: ms, c5)
    end.
Proof. reflexivity. Qed.

Lemma modifier_step n c s m rest : modifier_text rest s m -> rest_of c (s ++ rest) ->
  exists c4, spells s c c4 /\ rest_of c4 rest /\ s <> [] /\
    modifiers_loop (S n) c = let* '(ms, c5) := modifiers_loop n c4 in Ok (m :: ms, c5).
Proof.
  intros Hm Hr. rewrite modifiers_eq. destruct Hm as [d w k Hc Hk|d w k w2 Hc Hk Hw2 Hb Hs|d w k w2 name nn Hc Hk Hns Hn Hw2 Hs Hh].
  - destruct (modifier_letters _ _ Hk) as [K1 K2]. rewrite <- !app_assoc in Hr.
    destruct (counted_back c d w k _ Hr Hc K2 K1) as [c1 [c2 [E1 [E2 [S1 [S2 R2]]]]]]. rewrite E1, E2, (modifier_back _ _ Hk).
    cbn [text_eqb app] in *. change (text_eqb (T "silent") (T "hide")) with false. change (text_eqb (T "silent") (T "silent")) with true. cbn [andb]. cbv iota.
    pose proof R2 as R2'. apply rest_cons in R2. destruct R2 as [p [t [-> R2]]]. cbn [peek1 o_is]. change (33 =? C "!") with true. cbv iota.
    change (skip_white (Cons (R 33) p t)) with (Cons (R 33) p t). cbn [get snd bind].
    exists t. split; [|split; [auto|split; [|reflexivity]]].
    + rewrite app_assoc. eapply spells_app; eauto. eapply spells_app; eauto. cbn. auto.
    + destruct k; [congruence|]. destruct d; [|discriminate]. destruct w; discriminate.
  - destruct (modifier_letters _ _ Hk) as [K1 K2]. rewrite <- !app_assoc in Hr.
    destruct (counted_back c d w k _ Hr Hc K2 K1) as [c1 [c2 [E1 [E2 [S1 [S2 R2]]]]]]. rewrite E1, E2, (modifier_back _ _ Hk).
    change (text_eqb (T "silent") (T "hide")) with false. change (text_eqb (T "silent") (T "silent")) with true. cbn [andb]. cbv iota.
    assert (Hbb : o_is (peek1 c2) (C "!") = false).
    { rewrite (o_is_rest _ _ _ R2). destruct (starts_with _ (w2 ++ rest)) eqn:E; auto. apply starts_is_begins in E. contradiction. }
    rewrite Hbb. cbn [bind]. destruct (skip_blank w2 c2 rest R2 Hw2 Hs) as [S3 R3].
    exists (skip_white c2). split; [|split; [auto|split; [|reflexivity]]].
    + rewrite app_assoc. eapply spells_app; eauto. eapply spells_app; eauto.
    + destruct k; [congruence|]. destruct d; [|discriminate]. destruct w; discriminate.
  - destruct (modifier_letters _ _ Hk) as [K1 K2]. rewrite <- !app_assoc in Hr.
    destruct (counted_back c d w k _ Hr Hc K2 K1) as [c1 [c2 [E1 [E2 [S1 [S2 R2]]]]]]. rewrite E1, E2, (modifier_back _ _ Hk).
    assert (Ehide : text_eqb name (T "hide") && ends_excmds1 (peek1 c2) = false).
    { destruct (text_eqb name (T "hide")) eqn:E; auto. apply text_eqb_eq in E. cbn [andb].
      destruct (ends_excmds1 (peek1 c2)) eqn:E3; auto. apply (ends_iff _ _ R2) in E3. exfalso. apply (Hh E); auto. }
    cbv zeta. rewrite Ehide. assert (Es : text_eqb name (T "silent") = false).
    { destruct (text_eqb name (T "silent")) eqn:E; auto. apply text_eqb_eq in E. contradiction. }
    rewrite Es. destruct (skip_blank w2 c2 rest R2 Hw2 Hs) as [S3 R3].
    exists (skip_white c2). split; [|split; [auto|split]].
    + rewrite app_assoc. eapply spells_app; eauto. eapply spells_app; eauto.
    + destruct k; [congruence|]. destruct d; [|discriminate]. destruct w; discriminate.
    + destruct Hn as [[-> [Hd ->]]|[[-> [Hd ->]]|[N1 [N2 ->]]]].
      * change (text_eqb (T "tab") (T "tab")) with true. cbv iota. destruct d as [|d0 d1]; [reflexivity|]. cbn [is_nil]. rewrite (str2nr_back _ Hd). reflexivity.
      * change (text_eqb (T "verbose") (T "tab")) with false. change (text_eqb (T "verbose") (T "verbose")) with true. cbv iota.
        destruct d as [|d0 d1]; [reflexivity|]. cbn [is_nil]. rewrite (str2nr_back _ Hd). reflexivity.
      * destruct (text_eqb name (T "tab")) eqn:E; [apply text_eqb_eq in E; contradiction|].
        destruct (text_eqb name (T "verbose")) eqn:E'; [apply text_eqb_eq in E'; contradiction|]. reflexivity.
Qed.

Lemma modifiers_back rest tm ms : modifiers_text rest tm ms -> forall n c, rest_of c (tm ++ rest) -> (length tm < n)%nat ->
  exists c', modifiers_loop n c = Ok (ms, c') /\ spells tm c c' /\ rest_of c' rest.
Proof.
  induction 1 as [Hno|s m t ms Hm Hms IH|d w k Hc Hk He]; intros n c Hr Hn; (destruct n as [|n]; [lia|]).
  - exists c. split; [|split; [reflexivity|exact Hr]]. rewrite modifiers_eq. cbn [app] in Hr.
    destruct (counted c) as [d c1] eqn:E1. destruct (read_alpha c1) as [k c2] eqn:E2. cbv zeta.
    destruct (find_modifier modifier_table k) as [name|] eqn:Ef; [|reflexivity]. exfalso. apply Hno.
    destruct (rest_exists c2) as [t2 Ht2]. destruct (counted_read _ _ _ _ _ _ E1 E2 Ht2) as [w [S1 [S2 [A [C1 _]]]]].
    exists d, w, k, t2, name. split; [|split; [auto|apply modifier_found; auto]].
    apply (rest_unique c); auto. rewrite app_assoc. eapply rest_app; eauto. eapply rest_app; eauto.
  - rewrite <- app_assoc in Hr. destruct (modifier_step n c s m _ Hm Hr) as [c4 [S4 [R4 [Hne E]]]]. rewrite E.
    destruct (IH n c4 R4) as [c' [E2 [S5 R5]]]. { rewrite app_length in Hn. destruct s; [congruence|cbn [length] in Hn; lia]. }
    rewrite E2. exists c'. split; [reflexivity|]. split; [eapply spells_app; eauto|auto].
  - destruct (modifier_letters _ _ Hk) as [K1 K2]. rewrite modifiers_eq. rewrite <- !app_assoc in Hr.
    destruct (counted_back c d w k _ Hr Hc K2 K1) as [c1 [c2 [E1 [E2 [S1 [S2 R2]]]]]]. rewrite E1, E2, (modifier_back _ _ Hk).
    change (text_eqb (T "hide") (T "hide")) with true. assert (E3 : ends_excmds1 (peek1 c2) = true) by (apply (ends_iff _ _ R2); auto).
    cbv zeta. rewrite E3. cbn [andb]. cbv iota. assert (Hs : starts_with iswhite rest = false).
    { destruct He as [->|[[u ->]|[u ->]]]; reflexivity. }
    destruct (skip_blank [] c2 rest R2 ltac:(intros ? []) Hs) as [S3 R3]. cbn in S3.
    exists (skip_white c2). split; [reflexivity|]. split; [|auto]. rewrite app_assoc, <- S3. eapply spells_app; eauto.
Qed.

(** * Ranges *)

Lemma digit_no_white d t : d <> [] -> all_digits d -> starts_with iswhite (d ++ t) = false.
Proof.
  destruct d as [|r d]; [congruence|]. unfold all_digits. cbn [forallb app starts_with]. intros _ H. apply andb_true_iff in H. apply digit_not_white. tauto.
Qed.
Lemma offset_head o t : offset o -> starts_with iswhite (o ++ t) = false /\ o <> [].
Proof.
  destruct 1 as [d H1 H2|r d H1 H2].
  - split; [apply digit_no_white; auto|auto].
  - split; [|discriminate]. cbn. cbn in H1. destruct H1 as [<-|[<-|[]]]; reflexivity.
Qed.
Lemma integer_back o t c : offset o -> starts_with isdigit t = false -> rest_of c (o ++ t) ->
  exists c', read_integer c = (o, c') /\ spells o c c' /\ rest_of c' t.
Proof.
  intros Ho Ht Hr. unfold read_integer, read_digit. destruct Ho as [d H1 H2|r d H1 H2].
  - destruct d as [|x d]; [congruence|]. assert (E : o_in (fun r => (r =? C "-") || (r =? C "+")) (peek1 c) = false).
    { rewrite (o_in_rest _ _ _ Hr). unfold all_digits in H2. cbn [forallb] in H2. apply andb_true_iff in H2. destruct H2 as [H2 _]. cbn. clear - H2. unfold isdigit, between in H2. cbn in H2. lia. }
    rewrite E. destruct (read_rest isdigit _ _ _ Hr H2 Ht) as [c' [E2 [S2 R2]]]. rewrite E2. exists c'. auto.
  - cbn [app] in Hr. apply rest_cons in Hr. destruct Hr as [p [u [-> Hr]]].
    assert (E : o_in (fun r => (r =? C "-") || (r =? C "+")) (peek1 (Cons (R r) p u)) = true).
    { cbn. cbn in H1. clear - H1. lia. }
    rewrite E. cbn [getn]. destruct (read_rest isdigit _ _ _ Hr H2 Ht) as [c' [E2 [S2 R2]]]. rewrite E2. exists c'. cbn. auto.
Qed.
Lemma integer_none c t : rest_of c t -> starts_with (one_of (32 :: 9 :: T "+-0123456789")) t = false -> read_integer c = ([], c).
Proof.
  intros Hr Ht. unfold read_integer, read_digit. rewrite (o_in_rest _ _ _ Hr).
  replace (starts_with (fun r => (r =? C "-") || (r =? C "+")) t) with false.
  2: { destruct t as [|x t]; auto. cbn in *. lia. }
  destruct (read_rest isdigit [] c t Hr eq_refl) as [c' [E [S _]]]; [|cbn in S; subst; exact E].
  destruct t as [|x t]; auto. cbn in *. unfold isdigit, between. cbn. lia.
Qed.

Lemma offsets_back rest s l : offsets rest s l -> forall n c, rest_of c (s ++ rest) -> (length s < n)%nat ->
  exists c', range_ints n c = Ok (l, c') /\ spells s c c' /\ rest_of c' rest.
Proof.
  induction 1 as [w Hw Hs|w o s l Hw Ho Hd Hs IH]; intros n c Hr Hn; (destruct n as [|n]; [lia|]); cbn [range_ints].
  - assert (Hww : starts_with iswhite rest = false). { eapply starts_no; [exact Hs|]. intros r. unfold iswhite. cbn. lia. }
    destruct (skip_blank w c rest Hr Hw Hww) as [S1 R1]. exists (skip_white c). split; [|auto].
    destruct (peek1 (skip_white c)); [|reflexivity]. rewrite (integer_none _ _ R1 Hs). reflexivity.
  - rewrite <- !app_assoc in Hr. destruct (offset_head o (s ++ rest) Ho) as [Hww Hne].
    destruct (skip_blank w c _ Hr Hw Hww) as [S1 R1]. destruct (integer_back o _ _ Ho Hd R1) as [c1 [E1 [S2 R2]]]. rewrite E1.
    destruct (IH n c1 R2) as [c' [E2 [S3 R3]]]. { rewrite !app_length in Hn. destruct o; [congruence|]. cbn [length] in Hn. lia. }
    rewrite E2. exists c'. split; [|split; [|auto]].
    + rewrite (peek1_rest _ _ R1). destruct o as [|x o]; [congruence|]. reflexivity.
    + eapply spells_app; eauto. eapply spells_app; eauto.
Qed.

Lemma spec_back rest s l r c : line_spec rest s l -> rest_of c (s ++ rest) -> peek1 c = Some r -> wf c ->
  exists c', range_spec r c = Ok (l, true, c') /\ spells s c c' /\ rest_of c' rest.
Proof.
  intros H Hr Hp Hw. unfold range_spec. destruct H as [x Hx|x|d t Hd Ht|d t j Hd Ht Hre|x Hx|d Hne Hd Hs|Hs].
  - apply rest_cons in Hr. destruct Hr as [p [u [-> Hr]]]. inversion Hp; subst r.
    replace ((x =? C ".") || (x =? C "$")) with true by (cbn in Hx; cbn; lia). cbn [getn]. exists u. cbn; auto.
  - apply rest_cons in Hr. destruct Hr as [p [u [-> Hr]]]. inversion Hp; subst r. cbn [orb]. change ((C "'" =? C ".") || (C "'" =? C "$")) with false. change (C "'" =? C "'") with true. cbv iota.
    apply rest_cons in Hr. destruct Hr as [p2 [u2 [-> Hr]]]. cbn [getn snd is_nil]. exists u2. cbn; auto.
  - cbn [app] in Hr. apply rest_cons in Hr. destruct Hr as [p [u [-> Hr]]]. inversion Hp; subst r.
    replace ((d =? C ".") || (d =? C "$")) with false by (cbn in Hd; cbn; lia). replace (d =? C "'") with false by (cbn in Hd; cbn; lia).
    replace ((d =? C "/") || (d =? C "?")) with true by (cbn in Hd; cbn; lia). cbn [getn snd]. unfold parse_pattern.
    rewrite <- app_assoc in Hr. destruct (rest_split _ _ _ Hr) as [c1 [S1 R1]]. rewrite (pattern_reads d 0 t 0 Ht u c1 S1).
    apply rest_cons in R1. destruct R1 as [p1 [u1 [-> R1]]]. cbn [pattern_loop]. rewrite N.eqb_refl. cbn [andb Z.eqb bind]. rewrite app_nil_r.
    exists u1. split; [reflexivity|]. split; [|auto]. cbn [spells]. split; [auto|]. eapply spells_app; eauto. cbn; auto.
  - cbn [app] in Hr. apply rest_cons in Hr. destruct Hr as [p [u [-> Hr]]]. inversion Hp; subst r. subst rest.
    replace ((d =? C ".") || (d =? C "$")) with false by (cbn in Hd; cbn; lia). replace (d =? C "'") with false by (cbn in Hd; cbn; lia).
    replace ((d =? C "/") || (d =? C "?")) with true by (cbn in Hd; cbn; lia). cbn [getn snd]. unfold parse_pattern.
    destruct (rest_split _ _ _ Hr) as [c1 [S1 R1]]. rewrite (pattern_reads d 0 t j Ht u c1 S1).
    pose proof (peek1_rest _ _ R1) as Hp1.
    assert (E : pattern_loop d j c1 = Ok ([], false, c1)). { destruct c1 as [q|[|y] q v]; [reflexivity|reflexivity|discriminate Hp1]. }
    rewrite E. cbn [bind]. rewrite app_nil_r. exists c1. split; [reflexivity|]. split; [cbn; auto|auto].
  - cbn [app] in Hr. apply rest_cons in Hr. destruct Hr as [p [u [-> Hr]]]. inversion Hp; subst r.
    change ((92 =? C ".") || (92 =? C "$")) with false. change (92 =? C "'") with false. change ((92 =? C "/") || (92 =? C "?")) with false. change (92 =? 92) with true. cbv iota.
    rewrite p_S, p_0 by auto. cbn [bind]. apply rest_cons in Hr. destruct Hr as [p2 [u2 [-> Hr]]]. cbn [peek ch_of_cell ch_is].
    replace ((x =? C "&") || (x =? C "?") || (x =? C "/")) with true by (cbn in Hx; cbn; lia). cbn [seek_cur bind ch_text]. exists u2. cbn; auto.
  - destruct d as [|x d]; [congruence|]. cbn [app] in Hr. pose proof Hr as Hr'. apply rest_cons in Hr'. destruct Hr' as [p [u [E _]]]. rewrite E in Hp. inversion Hp; subst r.
    assert (Hx : isdigit x = true) by (unfold all_digits in Hd; cbn [forallb] in Hd; apply andb_true_iff in Hd; tauto).
    assert (Hx2 := Hx). unfold isdigit, between in Hx2. cbn in Hx2.
    replace ((x =? C ".") || (x =? C "$")) with false by (cbn; lia). replace (x =? C "'") with false by (cbn; lia).
    replace ((x =? C "/") || (x =? C "?")) with false by (cbn; lia). replace (x =? 92) with false by (cbn; lia). rewrite Hx.
    unfold read_digit. destruct (read_rest isdigit (x :: d) c rest Hr Hd Hs) as [c' [E2 [S2 R2]]]. rewrite E2. exists c'. auto.
  - cbn [app] in Hr. rewrite (peek1_rest _ _ Hr) in Hp. destruct rest as [|x rest]; [discriminate|]. inversion Hp; subst x. cbn in Hs.
    replace ((r =? C ".") || (r =? C "$")) with false by (cbn; lia). replace (r =? C "'") with false by (cbn; lia).
    replace ((r =? C "/") || (r =? C "?")) with false by (cbn; lia). replace (r =? 92) with false by (cbn; lia).
    replace (isdigit r) with false by (unfold isdigit, between; cbn; lia). exists c. cbn; auto.
Qed.

Lemma spells_wf' s c c' : wf c -> spells s c c' -> wf c'.
Proof. intros H Sp. apply spells_sfx in Sp. eapply wf_sfx; eauto. Qed.

Lemma slash_rest c t : rest_of c t -> (ch_is (peek c) (C "/") || ch_is (peek c) (C "?")) = starts_with (one_of (T "/?")) t.
Proof.
  intros Hr. pose proof (peek1_rest _ _ Hr) as Hp. destruct c as [q|[|x] q u]; cbn [peek1] in Hp; destruct t as [|y t]; try discriminate Hp; auto.
  inversion Hp; subst y. cbn. rewrite orb_false_r. reflexivity.
Qed.
Lemma rest_clen s c t : rest_of c (s ++ t) -> (length s <= clen c)%nat.
Proof.
  revert c; induction s as [|r s IH]; intros c H; cbn [length]; [lia|]. cbn [app] in H. apply rest_cons in H. destruct H as [p [u [-> H]]]. apply IH in H. cbn [clen]. lia.
Qed.

Lemma address_back rest s l : line_address rest s l -> forall n c, rest_of c (s ++ rest) -> wf c -> (length s < n)%nat ->
  exists c', range_inner n c = Ok (l, c') /\ spells s c c' /\ rest_of c' rest.
Proof.
  induction 1 as [w Hw Hre|w s o l m Hw Hs Hl Ho Hsl|w s o t l m k Hw Hs Hl Ho Hsl Ht IH]; intros n c Hr Hwf Hn; (destruct n as [|n]; [lia|]); cbn [range_inner].
  - subst rest. rewrite app_nil_r in Hr. destruct (skip_blank w c _ Hr Hw eq_refl) as [S1 R1]. pose proof R1 as R1'.
    apply rest_cons in R1. destruct R1 as [p [u [E R1]]]. rewrite E in *. cbn [peek1]. unfold range_spec.
    change ((39 =? C ".") || (39 =? C "$")) with false. change (39 =? C "'") with true. cbv iota. cbn [getn snd].
    pose proof (peek1_rest _ _ R1) as Hp. assert (G : getn 1 u = ([], u)) by (destruct u as [q|[|y] q v]; [reflexivity|reflexivity|discriminate Hp]).
    cbn [getn] in G. rewrite G. cbn [is_nil bind negb]. exists u. split; [reflexivity|]. split; [|auto]. eapply spells_app; eauto. cbn; auto.
  - rewrite <- !app_assoc in Hr. destruct (skip_blank w c _ Hr Hw Hs) as [S1 R1].
    assert (Hw1 : wf (skip_white c)) by (eapply spells_wf'; eauto).
    destruct (peek1 (skip_white c)) as [r|] eqn:Ep.
    + destruct (spec_back _ _ _ r _ Hl R1 Ep Hw1) as [c1 [E1 [S2 R2]]]. rewrite E1. cbn [bind negb].
      destruct (offsets_back _ _ _ Ho (S (clen c1)) c1 R2) as [c2 [E2 [S3 R3]]]. { pose proof (rest_clen _ _ _ R2). lia. }
      rewrite E2. cbn [bind]. rewrite p_0. cbn [bind]. rewrite (slash_rest _ _ R3), Hsl. exists c2. split; [reflexivity|]. split; [|auto].
      eapply spells_app; eauto. eapply spells_app; eauto.
    + rewrite (peek1_rest _ _ R1) in Ep. destruct s as [|? s]; [|discriminate]. destruct o as [|? o]; [|discriminate]. destruct rest; [|discriminate].
      exists (skip_white c). split; [|split; [cbn [app]; rewrite app_nil_r; auto|auto]].
      assert (l = []) by (inversion Hl; subst; auto; try congruence; destruct d; discriminate).
      assert (m = []). { inversion Ho as [|w' o' s' l' ? Hof]; subst; auto. destruct (offset_head o' [] Hof) as [_ K]. destruct w'; [|discriminate]. destruct o'; [congruence|discriminate]. }
      subst. reflexivity.
  - rewrite <- !app_assoc in Hr. destruct (skip_blank w c _ Hr Hw Hs) as [S1 R1].
    assert (Hw1 : wf (skip_white c)) by (eapply spells_wf'; eauto).
    destruct (peek1 (skip_white c)) as [r|] eqn:Ep.
    2: { rewrite (peek1_rest _ _ R1) in Ep. destruct s as [|? s]; [|discriminate]. destruct o as [|? o]; [|discriminate]. cbn [app] in Ep. destruct (t ++ rest); discriminate. }
    destruct (spec_back _ _ _ r _ Hl R1 Ep Hw1) as [c1 [E1 [S2 R2]]]. rewrite E1. cbn [bind negb].
    destruct (offsets_back _ _ _ Ho (S (clen c1)) c1 R2) as [c2 [E2 [S3 R3]]]. { pose proof (rest_clen _ _ _ R2). lia. }
    rewrite E2. cbn [bind]. rewrite p_0. cbn [bind]. rewrite (slash_rest _ _ R3), Hsl.
    assert (Hso : s ++ o <> []).
    { intros E. destruct s as [|? s]; [|discriminate]. destruct o as [|? o]; [|discriminate]. cbn [app] in *.
      inversion Hl as [|?|?|?|?|d Hd1 Hd2 Hd3|Hnone]; subst; try congruence. destruct (t ++ rest) as [|y u]; [discriminate|]. cbn in Hsl, Hnone. clear - Hsl Hnone. lia. }
    destruct (IH n c2 R3) as [c3 [E3 [S4 R4]]].
    { eapply spells_wf'; [|exact S3]. eapply spells_wf'; eauto. }
    { rewrite !app_length in Hn. assert (1 <= length s + length o)%nat by (rewrite <- app_length; destruct (s ++ o); [congruence|cbn; lia]). lia. }
    rewrite E3. exists c3. split; [reflexivity|]. split; [|auto]. eapply spells_app; eauto. eapply spells_app; eauto. eapply spells_app; eauto.
Qed.

Lemma range_loop_back rest s l : range_text rest s l -> forall n c, rest_of c (s ++ rest) -> wf c -> (length s < n)%nat ->
  exists c', range_loop n c = Ok (l, c') /\ spells s c c' /\ rest_of c' rest.
Proof.
  assert (Hall : forall p k rest c, all_lines rest p k -> rest_of c (p ++ rest) -> exists c',
    (if o_in (fun r => (r =? C "%") || (r =? C "*")) (peek1 c) then let '(s, c') := getn 1 c in ([s], c') else ([], c)) = (k, c') /\
    spells p c c' /\ rest_of c' rest).
  { intros p k rest0 c H Hr. rewrite (o_in_rest _ _ _ Hr). destruct H as [r Hin|Hs].
    - cbn [app starts_with]. replace ((r =? C "%") || (r =? C "*")) with true by (cbn in Hin; cbn; lia).
      apply rest_cons in Hr. destruct Hr as [q [u [-> Hr]]]. cbn [getn]. exists u. cbn; auto.
    - cbn [app] in *. replace (starts_with (fun r => (r =? C "%") || (r =? C "*")) rest0) with false.
      2: { rewrite <- Hs. apply starts_ext. intros r. cbn. lia. } exists c. cbn; auto. }
  induction 1 as [s p l k Ha Hp Hs|s p r t l k m Ha Hp Hs Ht IH]; intros n c Hr Hwf Hn; (destruct n as [|n]; [lia|]); cbn [range_loop].
  - rewrite <- app_assoc in Hr. destruct (address_back _ _ _ Ha (S (clen c)) c Hr Hwf) as [c1 [E1 [S1 R1]]]. { pose proof (rest_clen _ _ _ Hr). lia. }
    rewrite E1. cbn [bind]. destruct (Hall _ _ _ _ Hp R1) as [c2 [E2 [S2 R2]]]. rewrite E2.
    rewrite (o_in_rest _ _ _ R2). replace (starts_with (fun r => (r =? C ";") || (r =? C ",")) rest) with false.
    2: { rewrite <- Hs. apply starts_ext. intros r. cbn. lia. }
    exists c2. split; [reflexivity|]. split; [eapply spells_app; eauto|auto].
  - rewrite <- !app_assoc in Hr. cbn [app] in Hr. destruct (address_back _ _ _ Ha (S (clen c)) c Hr Hwf) as [c1 [E1 [S1 R1]]]. { pose proof (rest_clen _ _ _ Hr). lia. }
    rewrite E1. cbn [bind]. destruct (Hall _ _ _ _ Hp R1) as [c2 [E2 [S2 R2]]]. rewrite E2.
    rewrite (o_in_rest _ _ _ R2). cbn [starts_with]. replace ((r =? C ";") || (r =? C ",")) with true by (cbn in Hs; cbn; lia).
    apply rest_cons in R2. destruct R2 as [q [u [-> R2]]]. cbn [getn].
    destruct (IH n u R2) as [c' [E3 [S3 R3]]].
    { eapply wf_tail. eapply spells_wf'; [|exact S2]. eapply spells_wf'; eauto. }
    { rewrite !app_length in Hn. cbn [length] in Hn. lia. }
    rewrite E3. exists c'. split; [reflexivity|]. split; [|auto]. eapply spells_app; eauto. eapply spells_app; eauto. cbn; auto.
Qed.
Lemma range_back rest s l c : range_text rest s l -> rest_of c (s ++ rest) -> wf c ->
  exists c', parse_range c = Ok (l, c') /\ spells s c c' /\ rest_of c' rest.
Proof. intros H Hr Hw. eapply range_loop_back; eauto. pose proof (rest_clen _ _ _ Hr). lia. Qed.

(** * The name of the command *)

Lemma read_cmd_back w t key c : word_of (w ++ t) w key -> rest_of c (w ++ t) ->
  exists c1, read_cmd_name c = (key, c1) /\ spells w c c1 /\ rest_of c1 t /\ key <> [].
Proof.
  intros Hw Hr. destruct (read_cmd_name c) as [key' c1] eqn:E. destruct (rest_exists c1) as [t' Ht'].
  assert (Hne : key' <> []).
  { intros ->. destruct (word_starts _ _ _ Hw) as [r [u [El Hs]]]. rewrite El in Hr. rewrite (read_cmd_none _ _ _ _ E Hr) in Hs. discriminate. }
  destruct (read_cmd_word _ _ _ _ E Hne Ht') as [w' [S1 [W1 _]]].
  assert (El : w' ++ t' = w ++ t) by (apply (rest_unique c); auto; eapply rest_app; eauto). rewrite El in W1.
  destruct (word_of_fun _ _ _ _ _ W1 Hw) as [-> ->]. apply app_inv_head in El. subst t'. exists c1. auto.
Qed.

Lemma find_back nv w t x c fr ch : resolves nv (w ++ t) w x -> plain_key w -> rest_of c (w ++ t) -> cache_ok nv ch ->
  exists c1 ch', find_command nv (mkSt c fr ch) = (Some x, mkSt c1 fr ch') /\ spells w c c1 /\ rest_of c1 t /\ cache_ok nv ch'.
Proof.
  intros H Hpl Hr Hch.
  unfold find_command. cbn [cur]. inversion H as [w' key x' Hw Hf Hu|w0 w' Hw Hu Hl]; subst; clear H.
  - destruct (read_cmd_back _ _ _ _ Hw Hr) as [c1 [E1 [S1 [R1 Hne]]]]. rewrite E1. destruct key as [|k0 key]; [congruence|]. cbn [is_nil cache].
    assert (Hk : plain_key (k0 :: key)).
    { intros Hup. destruct (upper_word _ _ _ Hw Hup) as [-> [? [_ [K _]]]]. exact K. }
    assert (Ht : match lookup_builtin nv (k0 :: key) with None => starts_upper (k0 :: key) | Some x => text_eqb (c_name x) (T "Print") && starts_upper (k0 :: key) end = false).
    { apply not_true_iff_false. rewrite user_word_iff. exact Hu. }
    assert (Ha : answer nv (k0 :: key) = Some x) by (unfold answer; rewrite Ht; apply first_lookup; auto).
    destruct (assoc_text (k0 :: key) ch) as [y|] eqn:Ea.
    + rewrite (cached _ _ _ _ Hch Ea Hk), Ha. exists c1, ch. auto.
    + rewrite Ht. rewrite (first_lookup _ _ _ Hf). exists c1, ((k0 :: key, Some x) :: ch). cbn [ctx cache]. split; [reflexivity|]. split; [exact S1|]. split; [exact R1|]. constructor; [intros _; cbn [fst snd]; auto|exact Hch].
  - destruct Hu as [Hup Hu']. destruct (upper_word _ _ _ Hw Hup) as [_ Hl0].
    assert (Hup' : starts_upper w = true).
    { destruct Hl0 as [t0 [E0 _]]. destruct w0 as [|y w0]; [discriminate|]. destruct Hl as [t1 [E1 [_ H1]]]. destruct w as [|z w].
      - exfalso. cbn [app] in E0, E1. rewrite <- E1, E0 in H1. cbn [starts_with starts_upper app] in H1, Hup. clear - Hup H1. unfold isalnum, isalpha in H1. rewrite Hup, orb_true_r in H1. discriminate.
      - cbn [app] in E0. inversion E0; subst. exact Hup. }
    assert (w0 = w).
    { eapply longest_same; [exact Hl0|]. destruct Hl as [t1 [E1 [A1 A2]]]. exists t1. repeat split; auto. eapply starts_no; [exact A2|]. intros r Hra. unfold isalnum in Hra. apply orb_false_iff in Hra. tauto. }
    subst w0. destruct (read_cmd_back _ _ _ _ Hw Hr) as [c1 [E1 [S1 [R1 Hne]]]]. rewrite E1. destruct w as [|k0 key]; [congruence|]. cbn [is_nil cache].
    assert (Ht : match lookup_builtin nv (k0 :: key) with None => starts_upper (k0 :: key) | Some x => text_eqb (c_name x) (T "Print") && starts_upper (k0 :: key) end = true).
    { apply user_word_iff. split; auto. }
    assert (Ha : answer nv (k0 :: key) = Some (user_cmd (k0 :: key))) by (unfold answer; rewrite Ht; reflexivity).
    destruct (assoc_text (k0 :: key) ch) as [y|] eqn:Ea.
    + rewrite (cached _ _ _ _ Hch Ea Hpl), Ha. exists c1, ch. auto.
    + rewrite Ht. unfold read_alnum. assert (Hn : starts_with isalnum t = false).
      { destruct Hl as [t1 [E2 [_ A2]]]. apply app_inv_head in E2. subst t1. exact A2. }
      destruct (read_rest isalnum [] c1 t R1 eq_refl Hn) as [c1' [E3 [S3 _]]]. cbn in S3. subst c1'. rewrite E3, app_nil_r. cbn [ctx].
      exists c1, ((k0 :: key, Some (user_cmd (k0 :: key))) :: ch). split; [reflexivity|]. split; [exact S1|]. split; [exact R1|]. constructor; [intros _; cbn [fst snd]; auto|exact Hch].
Qed.

(** * Options and arguments of the head *)

Lemma getn_snd s n c t : rest_of c (s ++ t) -> length s = n -> spells s c (snd (getn n c)) /\ rest_of (snd (getn n c)) t.
Proof. intros H <-. destruct (getn_rest _ _ _ H) as [c1 [-> [H1 H2]]]. auto. Qed.

Definition kept_fields (e e' : exarg) : Prop := fixed e' = fixed e /\ own e' = own e /\ ea_do_ecmd_cmd e' = ea_do_ecmd_cmd e.

Lemma option_back rest s o c e : option_text rest s o -> rest_of c (s ++ rest) -> wf c ->
  exists e1 c1, forall n, argopt_loop (S n) e c = argopt_loop n e1 (skip_white c1) /\ spells s c c1 /\ rest_of c1 rest /\ opts_set [o] e e1 /\ kept_fields e e1.
Proof.
  intros Ho Hr Hw.
  assert (Hpp : p_match 0 (T "++") c = Ok true).
  { assert (exists u, s ++ rest = T "++" ++ u) as [u Eu].
    { destruct Ho as [H|H|H|p v Hp Hv H|p r v Hp Hr' Hv H|v Hv H|r H1 H2]; try (eexists; reflexivity);
        cbn [In] in Hp; repeat (destruct Hp as [<-|Hp]; [eexists; reflexivity|]); contradiction. }
    rewrite Eu in Hr. apply (p_match_rest (T "++") 0 c c u); auto. }
  assert (Hk : forall c1 e1 (Q : Prop), spells s c c1 -> rest_of c1 rest -> opts_set [o] e e1 -> kept_fields e e1 -> forall n,
     (let* '(e2, c2) := Ok (e1, c1) in argopt_loop n e2 (skip_white c2)) = argopt_loop n e1 (skip_white c1) /\ spells s c c1 /\ rest_of c1 rest /\ opts_set [o] e e1 /\ kept_fields e e1) by auto.
  assert (Hkept : forall e1, fixed e1 = fixed e -> own e1 = own e -> ea_do_ecmd_cmd e1 = ea_do_ecmd_cmd e -> kept_fields e e1) by (unfold kept_fields; auto).
  destruct Ho as [H|H|H|p v Hp Hv H|p r v Hp Hr' Hv H|v Hv H|r H1 H2].
  - destruct (getn_snd (T "++bin") 5 c rest Hr eq_refl) as [S1 R1]. exists (ea_set_force_bin 1 e), (snd (getn 5 c)). intros n.
    cbn [argopt_loop]. rewrite Hpp, (peekn_rest _ _ _ Hr), (lit_b (T "++bin") rest ltac:(cbn; lia) H). cbn [bind negb]. repeat split; auto.
  - destruct (getn_snd (T "++nobin") 7 c rest Hr eq_refl) as [S1 R1]. exists (ea_set_force_bin 2 e), (snd (getn 7 c)). intros n.
    cbn [argopt_loop]. rewrite Hpp, (peekn_rest _ _ _ Hr), (lit_b (T "++nobin") rest ltac:(cbn; lia) H). cbn [bind negb].
    change (re_lit_b (T "++bin") (firstn 20 (T "++nobin" ++ rest))) with false. cbv iota. cbn [bind]. repeat split; auto.
  - destruct (getn_snd (T "++edit") 6 c rest Hr eq_refl) as [S1 R1]. exists (ea_set_read_edit 1 e), (snd (getn 6 c)). intros n.
    cbn [argopt_loop]. rewrite Hpp, (peekn_rest _ _ _ Hr), (lit_b (T "++edit") rest ltac:(cbn; lia) H). cbn [bind negb].
    change (re_lit_b (T "++bin") (firstn 20 (T "++edit" ++ rest))) with false. change (re_lit_b (T "++nobin") (firstn 20 (T "++edit" ++ rest))) with false. cbv iota. cbn [bind]. repeat split; auto.
  - rewrite <- app_assoc in Hr. assert (Hva : forallb isalpha v = true) by (cbn [In] in Hv; destruct Hv as [<-|[<-|[<-|[]]]]; reflexivity).
    assert (exists c1, read_alpha (snd (getn (length p) c)) = (v, c1) /\ spells (p ++ v) c c1 /\ rest_of c1 rest) as [c1 [E1 [S1 R1]]].
    { destruct (getn_snd p (length p) c _ Hr eq_refl) as [S1 R1]. destruct (read_rest isalpha v _ _ R1 Hva (not_word_not_alpha _ H)) as [c1 [E1 [S2 R2]]]. exists c1. split; [exact E1|]. split; [eapply spells_app; eauto|auto]. }
    exists (ea_set_force_ff v e), c1. intros n. cbn [argopt_loop]. rewrite Hpp, (peekn_rest _ _ _ Hr). cbn [bind negb].
    pose proof (fun L => lit_ff p v rest L Hv H) as Lff. cbn [In] in Hp. destruct Hp as [<-|[<-|[]]]; rewrite Lff by (cbn; lia); clear Lff.
    + change (re_lit_b (T "++bin") (firstn 20 (T "++ff=" ++ v ++ rest))) with false. change (re_lit_b (T "++nobin") (firstn 20 (T "++ff=" ++ v ++ rest))) with false. change (re_lit_b (T "++edit") (firstn 20 (T "++ff=" ++ v ++ rest))) with false. cbv iota.
      change (read_alpha (snd (getn 5 c)) = (v, c1)) in E1. rewrite E1. cbn [bind]. repeat split; auto.
    + change (re_lit_b (T "++bin") (firstn 20 (T "++fileformat=" ++ v ++ rest))) with false. change (re_lit_b (T "++nobin") (firstn 20 (T "++fileformat=" ++ v ++ rest))) with false. change (re_lit_b (T "++edit") (firstn 20 (T "++fileformat=" ++ v ++ rest))) with false.
      change (re_lit_ff (T "++ff=") (firstn 20 (T "++fileformat=" ++ v ++ rest))) with false. cbv iota.
      change (read_alpha (snd (getn 13 c)) = (v, c1)) in E1. rewrite E1. cbn [bind]. repeat split; auto.
  - rewrite <- app_assoc in Hr. cbn [app] in Hr.
    assert (Hsp : re_space r = false). { destruct (re_space r) eqn:E; auto. exfalso. apply Hr'. clear - E. unfold re_space in E. cbn. cbn in E. lia. }
    assert (Hnw : forallb (fun r => negb (iswhite r)) (r :: v) = true).
    { apply forallb_forall. intros x [<-|Hx]; [|apply Hv in Hx; unfold iswhite; clear - Hx; lia]. clear - Hsp. unfold re_space in Hsp. unfold iswhite. cbn in *. lia. }
    assert (Hend : starts_with (fun r => negb (iswhite r)) rest = false). { destruct rest as [|x rest]; auto. destruct H as [H|H]; [|discriminate]. cbn in *. rewrite H. reflexivity. }
    assert (exists c1, read_nonwhite (snd (getn (length p) c)) = (r :: v, c1) /\ spells (p ++ r :: v) c c1 /\ rest_of c1 rest) as [c1 [E1 [S1 R1]]].
    { destruct (getn_snd p (length p) c _ Hr eq_refl) as [S1 R1]. destruct (read_rest _ (r :: v) _ _ R1 Hnw Hend) as [c1 [E1 [S2 R2]]]. exists c1. split; [exact E1|]. split; [eapply spells_app; eauto|auto]. }
    exists (ea_set_force_enc (r :: v) e), c1. intros n. cbn [argopt_loop]. rewrite Hpp, (peekn_rest _ _ _ Hr). cbn [bind negb].
    pose proof (fun L => lit_S p r (v ++ rest) L Hsp) as LS. cbn [In] in Hp. destruct Hp as [<-|[<-|[]]]; rewrite LS by (cbn; lia); clear LS.
    + change (re_lit_b (T "++bin") (firstn 20 (T "++enc=" ++ r :: v ++ rest))) with false. change (re_lit_b (T "++nobin") (firstn 20 (T "++enc=" ++ r :: v ++ rest))) with false. change (re_lit_b (T "++edit") (firstn 20 (T "++enc=" ++ r :: v ++ rest))) with false.
      change (re_lit_ff (T "++ff=") (firstn 20 (T "++enc=" ++ r :: v ++ rest))) with false. change (re_lit_ff (T "++fileformat=") (firstn 20 (T "++enc=" ++ r :: v ++ rest))) with false. cbv iota.
      change (read_nonwhite (snd (getn 6 c)) = (r :: v, c1)) in E1. rewrite E1. cbn [bind]. repeat split; auto.
    + change (re_lit_b (T "++bin") (firstn 20 (T "++encoding=" ++ r :: v ++ rest))) with false. change (re_lit_b (T "++nobin") (firstn 20 (T "++encoding=" ++ r :: v ++ rest))) with false. change (re_lit_b (T "++edit") (firstn 20 (T "++encoding=" ++ r :: v ++ rest))) with false.
      change (re_lit_ff (T "++ff=") (firstn 20 (T "++encoding=" ++ r :: v ++ rest))) with false. change (re_lit_ff (T "++fileformat=") (firstn 20 (T "++encoding=" ++ r :: v ++ rest))) with false. change (re_lit_S (T "++enc=") (firstn 20 (T "++encoding=" ++ r :: v ++ rest))) with false. cbv iota.
      change (read_nonwhite (snd (getn 11 c)) = (r :: v, c1)) in E1. rewrite E1. cbn [bind]. repeat split; auto.
  - rewrite <- app_assoc in Hr.
    destruct (getn_snd (T "++bad=") 6 c _ Hr eq_refl) as [S1 R1]. destruct (getn_rest v _ _ R1) as [c1 [E1 [S2 R2]]].
    exists (ea_set_bad_char v e), c1. intros n. cbn [argopt_loop]. rewrite Hpp, (peekn_rest _ _ _ Hr). cbn [bind negb].
    assert (Hb : re_bad (firstn 20 (T "++bad=" ++ v ++ rest)) = true).
    { unfold re_bad. cbn [In] in Hv. destruct Hv as [<-|[<-|[]]]; [rewrite (lit_b (T "++bad=keep") rest ltac:(cbn; lia) H : re_lit_b (T "++bad=keep") (firstn 20 (T "++bad=" ++ T "keep" ++ rest)) = true)|
        rewrite (lit_b (T "++bad=drop") rest ltac:(cbn; lia) H : re_lit_b (T "++bad=drop") (firstn 20 (T "++bad=" ++ T "drop" ++ rest)) = true), orb_true_r]; reflexivity. }
    rewrite Hb.
    change (re_lit_b (T "++bin") (firstn 20 (T "++bad=" ++ v ++ rest))) with false. change (re_lit_b (T "++nobin") (firstn 20 (T "++bad=" ++ v ++ rest))) with false. change (re_lit_b (T "++edit") (firstn 20 (T "++bad=" ++ v ++ rest))) with false.
    change (re_lit_ff (T "++ff=") (firstn 20 (T "++bad=" ++ v ++ rest))) with false. change (re_lit_ff (T "++fileformat=") (firstn 20 (T "++bad=" ++ v ++ rest))) with false. change (re_lit_S (T "++enc=") (firstn 20 (T "++bad=" ++ v ++ rest))) with false.
    change (re_lit_S (T "++encoding=") (firstn 20 (T "++bad=" ++ v ++ rest))) with false. cbv iota.
    assert (Hlen : (if is_prefix (T "++bad=keep") (firstn 20 (T "++bad=" ++ v ++ rest)) || is_prefix (T "++bad=drop") (firstn 20 (T "++bad=" ++ v ++ rest)) then 4 else 1)%nat = length v).
    { cbn [In] in Hv. destruct Hv as [<-|[<-|[]]]; reflexivity. }
    rewrite Hlen, E1. cbn [bind]. split; [reflexivity|]. split; [eapply spells_app; eauto|]. split; [auto|]. split; [repeat split|repeat split].
  - rewrite <- app_assoc in Hr.
    destruct (getn_snd (T "++bad=") 6 c _ Hr eq_refl) as [S1 R1]. destruct (getn_rest [r] _ _ R1) as [c1 [E1 [S2 R2]]].
    exists (ea_set_bad_char [r] e), c1. intros n. cbn [argopt_loop]. rewrite Hpp, (peekn_rest _ _ _ Hr). cbn [bind negb].
    change ([r] ++ rest) with (r :: rest). rewrite (bad_char r rest H1 H2).
    change (re_lit_b (T "++bin") (firstn 20 (T "++bad=" ++ r :: rest))) with false. change (re_lit_b (T "++nobin") (firstn 20 (T "++bad=" ++ r :: rest))) with false. change (re_lit_b (T "++edit") (firstn 20 (T "++bad=" ++ r :: rest))) with false.
    change (re_lit_ff (T "++ff=") (firstn 20 (T "++bad=" ++ r :: rest))) with false. change (re_lit_ff (T "++fileformat=") (firstn 20 (T "++bad=" ++ r :: rest))) with false. change (re_lit_S (T "++enc=") (firstn 20 (T "++bad=" ++ r :: rest))) with false.
    change (re_lit_S (T "++encoding=") (firstn 20 (T "++bad=" ++ r :: rest))) with false. cbv iota.
    rewrite (bad_char_prefix r rest H2). cbn [length] in E1. rewrite E1. cbn [bind]. split; [reflexivity|]. split; [eapply spells_app; eauto|]. split; [auto|]. split; [repeat split|repeat split].
Qed.

Lemma options_back rest t os : options_text rest t os -> forall n e c, rest_of c (t ++ rest) -> wf c -> (length t < n)%nat ->
  exists e1 c1, argopt_loop n e c = Ok (e1, c1) /\ spells t c c1 /\ rest_of c1 rest /\ opts_set os e e1 /\ kept_fields e e1.
Proof.
  induction 1 as [Hno|s o w t os Ho Hw Hs Ht IH]; intros n e c Hr Hwf Hn; (destruct n as [|n]; [lia|]).
  - exists e, c. split; [|repeat split; auto]. cbn [argopt_loop].
    destruct (p_match_spells (T "++") 0 c c) as [[Hm [d' Hd]]|Hm]; auto.
    + exfalso. apply Hno. pose proof (rest_after [] c c rest Hr eq_refl) as _. destruct (rest_exists d') as [u Hu]. exists u. apply (rest_unique c); auto. eapply rest_app; eauto.
    + rewrite Hm. reflexivity.
  - rewrite <- !app_assoc in Hr. destruct (option_back _ _ _ c e Ho Hr Hwf) as [e1 [c1 H1]]. destruct (H1 n) as [E1 [S1 [R1 [O1 K1]]]]. rewrite E1.
    destruct (skip_blank w c1 _ R1 Hw Hs) as [S2 R2].
    destruct (IH n e1 (skip_white c1) R2) as [e2 [c2 [E2 [S3 [R3 [O2 K2]]]]]].
    { eapply spells_wf'; [|exact S2]. eapply spells_wf'; eauto. }
    { rewrite !app_length in Hn. assert (1 <= length s)%nat; [|lia]. destruct Ho as [?|?|?|p v Hp ? ?|p r v Hp ? ? ?|?|?]; try (cbn [In] in Hp; destruct Hp as [<-|[<-|[]]]); rewrite ?app_length; cbn [length]; lia. }
    exists e2, c2. split; [exact E2|]. split; [eapply spells_app; eauto; eapply spells_app; eauto|]. split; [auto|]. split; [eapply opts_set_cons; eauto|].
    unfold kept_fields in *. destruct K1 as [-> [-> ->]] in K2. exact K2.
Qed.

Lemma own_back name cp force rest t2 f a u m e c : own_text name force rest t2 f a u m -> own e = (force, 0, false, 0) -> rest_of c (t2 ++ rest) -> wf c ->
  exists e1 c1 e2 c2 e3 c3, write_args name cp e c = Ok (e1, c1) /\ read_args name e1 c1 = (e2, c2) /\ shift_args name e2 c2 = (e3, c3) /\
    spells t2 c c3 /\ rest_of c3 rest /\ own e3 = (f, a, u, m) /\ fixed e3 = fixed e /\ opts e3 = opts e /\ ea_do_ecmd_cmd e3 = ea_do_ecmd_cmd e.
Proof.
  intros Ho He Hr Hw. unfold own in He. injection He as H1 H2 H3 H4.
  destruct Ho as [w Hn Hww Hs| -> | -> -> | -> -> |r n w Hin -> Hs Hww Hs2|N1 N2 N3 N4].
  - rewrite <- app_assoc in Hr. cbn [app] in Hr. apply rest_cons in Hr. destruct Hr as [p [k1 [-> Hr]]]. apply rest_cons in Hr. destruct Hr as [p2 [k2 [-> Hr]]].
    destruct (skip_blank w k2 rest Hr Hww Hs) as [S1 R1].
    exists (ea_set_append 1 e), (skip_white k2), (ea_set_append 1 e), (skip_white k2), (ea_set_append 1 e), (skip_white k2).
    split; [|split; [|split; [|split; [|split; [exact R1|]]]]].
    + unfold write_args. rewrite p_0, p_S, p_0 by auto. cbn [In] in Hn. destruct Hn as [<-|[<-|[]]]; reflexivity.
    + cbn [In] in Hn. destruct Hn as [<-|[<-|[]]]; reflexivity.
    + cbn [In] in Hn. destruct Hn as [<-|[<-|[]]]; reflexivity.
    + cbn. auto.
    + unfold own. cbn. rewrite H1, H3, H4. repeat split.
  - cbn [app] in Hr. apply rest_cons in Hr. destruct Hr as [p [k1 [-> Hr]]].
    exists (ea_set_filter (ea_forceit e) e), k1, (ea_set_filter (ea_forceit e) e), k1, (ea_set_filter (ea_forceit e) e), k1.
    split; [reflexivity|]. split; [reflexivity|]. split; [reflexivity|]. split; [cbn; auto|]. split; [auto|]. unfold own. cbn. rewrite H1, H2, H4. repeat split.
  - exists e, c, (ea_set_filter false e), c, (ea_set_filter false e), c. cbn [app] in Hr.
    split; [reflexivity|]. split; [unfold read_args; change (text_eqb (T "read") (T "read")) with true; cbv iota; rewrite H1; reflexivity|]. split; [reflexivity|]. split; [reflexivity|]. split; [auto|]. unfold own. cbn. rewrite H2, H4. repeat split.
  - cbn [app] in Hr. apply rest_cons in Hr. destruct Hr as [p [k1 [-> Hr]]].
    exists e, (Cons (R (C "!")) p k1), (ea_set_filter (ea_forceit e) e), k1, (ea_set_filter (ea_forceit e) e), k1.
    split; [reflexivity|]. split; [unfold read_args; change (text_eqb (T "read") (T "read")) with true; cbv iota; rewrite H1; reflexivity|]. split; [reflexivity|]. split; [cbn; auto|]. split; [auto|]. unfold own. cbn. rewrite H1, H2, H4. repeat split.
  - exists e, c, e, c. rewrite <- app_assoc in Hr.
    destruct (read_rest (fun x => x =? r) (repeat r n) c _ Hr) as [c1 [E1 [S1 R1]]]; auto.
    { apply forallb_forall. intros x Hx. apply repeat_spec in Hx. subst. apply N.eqb_refl. }
    destruct (skip_blank w c1 rest R1 Hww Hs2) as [S2 R2].
    exists (ea_set_amount (N.of_nat n + 1) e), (skip_white c1).
    split; [|split; [|split; [|split; [eapply spells_app; eauto|split; [auto|]]]]].
    + cbn [In] in Hin. cbn in Hin. destruct Hin as [<-|[<-|[]]]; reflexivity.
    + cbn in Hin. destruct Hin as [<-|[<-|[]]]; reflexivity.
    + unfold shift_args. replace ((r =? C "<") || (r =? C ">")) with true by (cbn in Hin; cbn; clear - Hin; lia). rewrite E1, repeat_length, N.add_comm. reflexivity.
    + unfold own. cbn. rewrite H1, H2, H3. repeat split.
  - exists e, c, e, c, e, c. cbn [app] in Hr. split; [|split; [|split; [|split; [reflexivity|split; [auto|]]]]].
    + unfold write_args. destruct (text_eqb name (T "write") || text_eqb name (T "update")) eqn:E; [|reflexivity].
      rewrite p_0. cbn [bind]. apply orb_true_iff in E. rewrite !text_eqb_eq in E.
      assert (Hg : ch_is (peek c) (C ">") = false).
      { assert (Hnb : ~ begins (T ">") rest) by (apply N2; cbn; destruct E; auto). pose proof (peek1_rest _ _ Hr) as Hp.
        destruct c as [q|[|x] q v]; try reflexivity. cbn [peek ch_of_cell ch_is]. destruct rest as [|y rest]; [discriminate|]. inversion Hp; subst y.
        destruct (x =? C ">") eqn:X; auto. apply N.eqb_eq in X. subst x. exfalso. apply Hnb. eexists. reflexivity. }
      rewrite Hg. destruct (text_eqb name (T "write")) eqn:E2; [|rewrite andb_false_r; reflexivity]. apply text_eqb_eq in E2.
      rewrite (o_is_rest _ _ _ Hr). destruct (starts_with (fun x => x =? C "!") rest) eqn:E3; [|reflexivity]. apply starts_is_begins in E3. destruct (N3 E2 E3).
    + unfold read_args. destruct (text_eqb name (T "read")) eqn:E; [|reflexivity]. apply text_eqb_eq in E. destruct (N4 E) as [-> Hnb]. rewrite H1.
      rewrite (o_is_rest _ _ _ Hr). destruct (starts_with (fun x => x =? C "!") rest) eqn:E3; [|reflexivity]. apply starts_is_begins in E3. contradiction.
    + unfold shift_args. destruct name as [|x [|? ?]]; try reflexivity. destruct ((x =? C "<") || (x =? C ">")) eqn:E; [|reflexivity]. exfalso. apply N1.
      apply orb_true_iff in E. rewrite !N.eqb_eq in E. destruct E as [->| ->]; cbn; auto.
    + unfold own. rewrite H1, H2, H3, H4. repeat split.
Qed.

Lemma cmdarg_back s v rest : cmdarg s v rest -> forall c, rest_of c (s ++ rest) -> exists c', read_cmdarg c = (v, c') /\ spells s c c' /\ rest_of c' rest.
Proof.
  induction 1 as [rest H|r s v rest Hr Hb H IH|r s v rest H IH|]; intros c Hc.
  - exists c. cbn [app] in Hc. split; [|split; [reflexivity|auto]]. pose proof (peek1_rest _ _ Hc) as Hp. destruct c as [q|[|x] q u]; try reflexivity.
    destruct rest as [|y rest]; [discriminate|]. inversion Hp; subst y. destruct H as [H|H]; [|discriminate]. cbn in H. cbn [read_cmdarg]. rewrite H. reflexivity.
  - cbn [app] in Hc. apply rest_cons in Hc. destruct Hc as [q [u [-> Hc]]]. destruct (IH _ Hc) as [c' [E [S1 R1]]]. exists c'. cbn [read_cmdarg]. rewrite Hr. apply N.eqb_neq in Hb. rewrite Hb, E. cbn. auto.
  - cbn [app] in Hc. apply rest_cons in Hc. destruct Hc as [q [u [-> Hc]]]. apply rest_cons in Hc. destruct Hc as [q2 [u2 [-> Hc]]]. destruct (IH _ Hc) as [c' [E [S1 R1]]]. exists c'. cbn [read_cmdarg]. change (iswhite 92) with false. change (92 =? 92) with true. cbv iota. rewrite E. cbn. auto.
  - cbn [app] in Hc. apply rest_cons in Hc. destruct Hc as [q [u [-> Hc]]]. exists u. cbn [read_cmdarg]. change (iswhite 92) with false. change (92 =? 92) with true. cbv iota.
    pose proof (peek1_rest _ _ Hc) as Hp. destruct u as [|[|y] ? ?]; [| |discriminate]; (split; [reflexivity|split; [cbn; auto|auto]]).
Qed.
Lemma ecmd_back (allowed : bool) rest t3 v e c : ecmd_text allowed rest t3 v -> ea_do_ecmd_cmd e = [] -> rest_of c (t3 ++ rest) ->
  exists e' c', (if allowed then parse_argcmd e c else (e, c)) = (e', c') /\ spells t3 c c' /\ rest_of c' rest /\
    ea_do_ecmd_cmd e' = v /\ fixed e' = fixed e /\ own e' = own e /\ opts e' = opts e.
Proof.
  intros H He Hr. destruct H as [Hn| -> Hb|s v -> Hn Ha].
  - exists e, c. cbn [app] in Hr. split; [|repeat split; auto]. destruct allowed; [|reflexivity]. unfold parse_argcmd. rewrite (o_is_rest _ _ _ Hr).
    destruct (starts_with (fun x => x =? C "+") rest) eqn:E3; [|reflexivity]. apply starts_is_begins in E3. destruct (Hn eq_refl E3).
  - cbn [app] in Hr. apply rest_cons in Hr. destruct Hr as [q [u [-> Hr]]]. exists (ea_set_ecmd (T "$") e), u. split; [|cbn; repeat split; auto].
    unfold parse_argcmd. cbn [peek1 o_is]. change (43 =? C "+") with true. cbv iota. cbn [getn snd]. rewrite (o_is_rest _ _ _ Hr). destruct Hb as [b ->]. reflexivity.
  - cbn [app] in Hr. apply rest_cons in Hr. destruct Hr as [q [u [-> Hr]]]. destruct (cmdarg_back _ _ _ Ha _ Hr) as [c' [E [S1 R1]]]. exists (ea_set_ecmd v e), c'. split; [|cbn; repeat split; auto].
    unfold parse_argcmd. cbn [peek1 o_is]. change (C "+" =? C "+") with true. cbv iota. cbn [getn snd]. rewrite (o_is_rest _ _ _ Hr).
    destruct (starts_with (fun x => x =? C " ") (s ++ rest)) eqn:E3; [apply starts_is_begins in E3; contradiction|]. rewrite E. reflexivity.
Qed.

(** * The first character of a line *)

Section First.
Context (P : text -> Prop) (Fc : forall r t, isalpha r || isdigit r || iswhite r || one_of (92 :: T ".$'/?&+-%*;,:") r = true -> P (r :: t)).
Lemma Fwhite w t : all_white w -> P t -> P (w ++ t).
Proof. intros H Ht. destruct w as [|r w]; auto. cbn. apply Fc. destruct (H r (or_introl eq_refl)) as [-> | ->]; reflexivity. Qed.
Lemma Fdigit d t : all_digits d -> P t -> P (d ++ t).
Proof. destruct d as [|r d]; auto. unfold all_digits. cbn. intros H _. apply andb_true_iff in H. apply Fc. rewrite (proj1 H), orb_true_r. reflexivity. Qed.
Lemma Falpha d t : d <> [] -> forallb isalpha d = true -> P (d ++ t).
Proof. destruct d as [|r d]; [congruence|]. cbn. intros _ H. apply andb_true_iff in H. apply Fc. rewrite (proj1 H). reflexivity. Qed.
Lemma Fcount d w k t u : counted_word d w k u -> k <> [] -> forallb isalpha k = true -> P (d ++ w ++ k ++ t).
Proof. intros [H1 [H2 _]] Hk Ha. apply Fdigit; auto. apply Fwhite; auto. apply Falpha; auto. Qed.
Lemma modifiers_first rest tm ms : modifiers_text rest tm ms -> P rest -> P (tm ++ rest).
Proof.
  destruct 1 as [Hno|s m t ms Hm Hms|d w k Hc Hk He]; intros H; auto.
  - destruct Hm as [d w k Hc Hk|d w k w2 Hc Hk Hw2 Hb Hs|d w k w2 name nn Hc Hk Hns Hn Hw2 Hs Hh];
      destruct (modifier_letters _ _ Hk) as [K1 K2]; rewrite <- !app_assoc; eapply Fcount; eauto.
  - destruct (modifier_letters _ _ Hk) as [K1 K2]; rewrite <- !app_assoc; eapply Fcount; eauto.
Qed.
Lemma spec_first rest s l : line_spec rest s l -> P rest -> P (s ++ rest).
Proof.
  destruct 1 as [x Hx|x|d t Hd Ht|d t j Hd Ht Hre|x Hx|d Hne Hd Hs|Hs]; intros H; auto; try (cbn [app]; apply Fc).
  - apply orb_true_iff; right; apply one_of_iff; cbn in Hx |- *; tauto.
  - apply orb_true_iff; right; apply one_of_iff; cbn; tauto.
  - apply orb_true_iff; right; apply one_of_iff; cbn in Hd |- *; tauto.
  - apply orb_true_iff; right; apply one_of_iff; cbn in Hd |- *; tauto.
  - apply orb_true_iff; right; apply one_of_iff; cbn; tauto.
  - apply Fdigit; auto.
Qed.
Lemma offsets_first rest s l : offsets rest s l -> P rest -> P (s ++ rest).
Proof.
  destruct 1 as [w Hw Hs|w o s l Hw Ho Hd Hs]; intros H; [apply Fwhite; auto|].
  rewrite <- !app_assoc. apply Fwhite; auto. destruct Ho as [d D1 D2|r d H1 H2]; [destruct d as [|r d]; [congruence|]|]; cbn [app]; apply Fc.
  - unfold all_digits in D2. cbn [forallb] in D2. apply andb_true_iff in D2. rewrite (proj1 D2), orb_true_r. reflexivity.
  - apply orb_true_iff; right; apply one_of_iff; cbn in H1 |- *; tauto.
Qed.
Lemma address_first rest s l : line_address rest s l -> P rest -> P (s ++ rest).
Proof.
  induction 1 as [w Hw Hre|w s o l m Hw Hs Hl Ho Hsl|w s o t l m k Hw Hs Hl Ho Hsl Ht IH]; intros H; rewrite <- ?app_assoc; apply Fwhite; auto.
  - cbn. apply Fc. reflexivity.
  - eapply spec_first; eauto. eapply offsets_first; eauto.
  - eapply spec_first; eauto. eapply offsets_first; eauto.
Qed.
Lemma range_first rest s l : range_text rest s l -> P rest -> P (s ++ rest).
Proof.
  assert (Hall : forall p k rest, all_lines rest p k -> P rest -> P (p ++ rest)).
  { intros p k r0 [r Hr|Hs] H; auto. cbn. apply Fc. apply orb_true_iff; right; apply one_of_iff; cbn in Hr |- *; tauto. }
  destruct 1 as [s p l k Ha Hp Hs|s p r t l k m Ha Hp Hs Ht]; intros H; rewrite <- ?app_assoc.
  - eapply address_first; eauto.
  - cbn [app]. eapply address_first; eauto. eapply Hall; eauto. cbn. apply Fc. apply orb_true_iff; right; apply one_of_iff; cbn in Hs |- *; tauto.
Qed.
Lemma lead_first_P h lead rest : lead_text h lead rest -> P rest -> P (lead ++ rest).
Proof.
  intros [tm [tr [tb [-> [Hm [Hr Hb]]]]]] H. rewrite <- !app_assoc. eapply modifiers_first; eauto. eapply range_first; eauto.
  destruct tb as [|r tb]; auto. cbn. apply Fc. destruct (Hb r (or_introl eq_refl)) as [->|[->| ->]]; reflexivity.
Qed.
End First.
Definition lead_class (r : N) : bool := isalpha r || isdigit r || iswhite r || one_of (92 :: T ".$'/?&+-%*;,:") r.
Lemma lead_first f (Fc : forall r, lead_class r = true -> f r = false) h lead rest :
  lead_text h lead rest -> starts_with f rest = false -> starts_with f (lead ++ rest) = false.
Proof. apply (lead_first_P (fun t => starts_with f t = false)). intros r t. cbn. apply Fc. Qed.
Lemma lead_first2 f (Fc : forall r, lead_class r = true -> f r = false) h lead rest :
  lead_text h lead rest -> lead <> [] -> starts_with f (lead ++ rest) = false.
Proof.
  intros H Hne. destruct (lead_first_P (fun t => starts_with f t = false \/ t = rest) ltac:(intros r t; cbn; left; apply Fc; auto) h lead rest H) as [K|K]; auto.
  exfalso. apply Hne. apply (app_inv_tail rest). exact K.
Qed.

(** * The whole head *)

Definition blank_colon (r : N) : bool := iswhite r || (r =? C ":").
Lemma skip_lead_back l t c : lead l -> rest_of c (l ++ t) -> starts_with blank_colon t = false ->
  spells l c (skip_white_and_colon c) /\ rest_of (skip_white_and_colon c) t.
Proof. intros H1 H2 H3. apply (skip_rest blank_colon); auto. Qed.
Lemma quote_sign r : sign_char r || isdigit r || iswhite r || one_of (92 :: T ".$'/?&+-%*;,:") r = true -> one_of (T """|") r = false.
Proof. unfold one_of, sign_char, one_of, isalpha, isdigit, iswhite, isupper, islower, between. cbn. lia. Qed.
Lemma sign_not_blank r : sign_char r = true -> blank_colon r = false.
Proof. unfold sign_char, blank_colon, one_of, isalpha, iswhite, isupper, islower, between. cbn. lia. Qed.
Lemma hash_rest c t : rest_of c t -> ~ begins (T "#!") t -> text_eqb (peekn 2 c) (T "#!") = false.
Proof.
  intros Hr Hn. rewrite (peekn_rest _ _ _ Hr). destruct (text_eqb (firstn 2 t) (T "#!")) eqn:E; auto. apply text_eqb_eq in E. exfalso. apply Hn.
  exists (skipn 2 t). rewrite <- E. symmetry. apply firstn_skipn.
Qed.
Lemma resolves_starts nv line w x : resolves nv line w x -> exists r u, line = r :: u /\ sign_char r = true.
Proof. destruct 1; eapply word_starts; eauto. Qed.

Lemma line_back nv h l tl rest c fr ch : lead l -> lead_text h tl rest -> starts_with blank_colon rest = false ->
  starts_with (one_of (T """|")) (tl ++ rest) = false -> tl ++ rest <> [] ->
  rest_of c (l ++ tl ++ rest) -> wf c ->
  starts_with blank_colon (tl ++ rest) = false -> ~ begins (T "#!") (l ++ tl ++ rest) ->
  exists a b c1, spells l c a /\ spells tl a b /\ rest_of b rest /\ is_eof c = false /\ b = skip_white_and_colon c1 /\
    let e := ea_set_range (hf_range h) (ea_set_mods (hf_modifiers h) (ea_set_line (getpos a) ea0)) in
    parse_one_cmd nv (mkSt c fr ch) = let* st2 := parse_command nv e a (mkSt c1 fr ch) in parse_trail st2.
Proof.
  intros Hl [tm [tr [tb [Etl [Hm [Hrg Hb]]]]]] Hs Hq Hne Hr Hw Hbl Hh.
  destruct (skip_lead_back _ _ _ Hl Hr Hbl) as [S0 R0]. set (a := skip_white_and_colon c) in *.
  assert (Wa : wf a) by (eapply spells_wf'; eauto). pose proof R0 as R0'. rewrite Etl, <- !app_assoc in R0'.
  destruct (modifiers_back _ _ _ Hm (S (clen a)) a R0') as [c0 [E0 [S1 R1]]]. { pose proof (rest_clen _ _ _ R0'). lia. }
  destruct (range_back _ _ _ c0 Hrg R1) as [c1 [E1 [S2 R2]]]. { eapply spells_wf'; eauto. }
  destruct (skip_lead_back tb rest c1) as [S3 R3]; auto.
  { unfold lead. apply forallb_forall. intros r Hin. apply Hb in Hin. destruct Hin as [->|[->| ->]]; reflexivity. }
  exists a, (skip_white_and_colon c1), c1. split; [auto|]. split; [rewrite Etl; eapply spells_app; eauto; eapply spells_app; eauto|]. split; [auto|]. split.
  { destruct (l ++ tl ++ rest) as [|x ?] eqn:E; [destruct l; [contradiction|discriminate]|]. apply rest_cons in Hr. destruct Hr as [p [u [-> _]]]. reflexivity. }
  split; [reflexivity|]. cbv zeta. unfold parse_one_cmd. cbn [cur]. rewrite (hash_rest _ _ Hr Hh). fold a. rewrite (peek1_rest _ _ R0).
  destruct (tl ++ rest) as [|x t] eqn:Et; [congruence|]. cbn [starts_with] in Hq.
  replace (x =? C """") with false by (cbn in Hq; cbn; clear - Hq; lia).
  unfold parse_command_modifiers. rewrite E0. cbn [bind]. rewrite E1. cbn [bind]. reflexivity.
Qed.

Lemma head_back nv x h l tl w bang white opts rest c fr ch :
  lead l -> head_text nv x h tl w bang white opts rest -> resolves nv (w ++ bang ++ white ++ opts ++ rest) w x -> plain_key w ->
  rest_of c (l ++ tl ++ w ++ bang ++ white ++ opts ++ rest) -> wf c -> cache_ok nv ch ->
  starts_with blank_colon (tl ++ w ++ bang ++ white ++ opts ++ rest) = false -> ~ begins (T "#!") (l ++ tl ++ w ++ bang ++ white ++ opts ++ rest) ->
  exists a b d k e ch', spells l c a /\ spells tl a b /\ spells (w ++ bang ++ white) b d /\ spells opts d k /\ rest_of k rest /\ is_eof c = false /\
    head_of e = h /\ ea_cmd e = Some x /\ ea_linepos e = Some (getpos a) /\ ea_cmdpos e = Some (getpos b) /\ ea_argpos e = Some (getpos d) /\ cache_ok nv ch' /\
    parse_one_cmd nv (mkSt c fr ch) = let* st2 := dispatch (mkEc e a b d x) (mkSt k fr ch') in parse_trail st2.
Proof.
  intros Hl HT Hres Hpl Hr Hw Hch Hbl Hh. destruct HT as [Hlead _ Hbang Hwhite [Hargs1 Hargs2] Hopts].
  destruct (resolves_starts _ _ _ _ Hres) as [r0 [u0 [E0 Hs0]]].
  assert (Hq0 : starts_with (one_of (T """|")) (w ++ bang ++ white ++ opts ++ rest) = false).
  { rewrite E0. cbn [starts_with]. apply quote_sign. rewrite Hs0. reflexivity. }
  destruct (line_back nv h l tl (w ++ bang ++ white ++ opts ++ rest) c fr ch) as [a [b [c1 [S1 [S2 [R2 [He [Eb E1]]]]]]]]; auto.
  { rewrite E0. cbn [starts_with]. apply sign_not_blank; auto. }
  { eapply lead_first; eauto. intros r Hr'. unfold lead_class in Hr'. apply quote_sign. unfold sign_char. clear - Hr'. destruct (isalpha r); [reflexivity|]. cbn [orb] in *. rewrite <- orb_assoc, <- orb_assoc. rewrite <- orb_assoc in Hr'. rewrite Hr'. apply orb_true_r. }
  { rewrite E0. destruct tl; discriminate. }
  assert (Wb : wf b) by (eapply spells_wf'; [|exact S2]; eapply spells_wf'; eauto).
  destruct (find_back nv w _ x b fr ch Hres Hpl R2 Hch) as [b1 [ch' [E2 [S3 [R3 Hch']]]]].
  set (e0 := ea_set_range (hf_range h) (ea_set_mods (hf_modifiers h) (ea_set_line (getpos a) ea0))) in *. cbv zeta in E1.
  set (force := text_eqb bang (T "!")) in *.
  assert (Hforce : exists b2, o_is (peek1 b1) (C "!") && negb (text_eqb (c_name x) (T "substitute")) && negb (text_eqb (c_name x) (T "smagic")) && negb (text_eqb (c_name x) (T "snomagic")) = force /\
      (if force then snd (getn 1 b1) else b1) = b2 /\ spells bang b1 b2 /\ rest_of b2 (white ++ opts ++ rest) /\
      negb (has_flag (T "BANG") x) && force && negb (has_flag (T "USERCMD") x) = false).
  { destruct Hbang as [[Eb1 [Hnin Hfl]]|[Eb1 Himp]].
    - unfold force. rewrite Eb1 in *. change (text_eqb (T "!") (T "!")) with true. destruct (getn_snd (T "!") 1 b1 _ R3 eq_refl) as [S4 R4]. exists (snd (getn 1 b1)).
      split; [|split; [reflexivity|split; [auto|split; [auto|]]]].
      + rewrite (o_is_rest _ _ _ R3). cbn [app starts_with]. change (33 =? C "!") with true. cbn [andb]. 
        assert (K : forall n, In n [T "substitute"; T "smagic"; T "snomagic"] -> negb (text_eqb (c_name x) n) = true).
        { intros n Hn. apply negb_true_iff. destruct (text_eqb (c_name x) n) eqn:E; auto. apply text_eqb_eq in E. rewrite E in Hnin. contradiction. }
        rewrite !K by (cbn; auto). reflexivity.
      + unfold has_flag. fold (flag (T "BANG") x). fold (flag (T "USERCMD") x). destruct Hfl as [-> | ->]; rewrite ?andb_false_r; reflexivity.
    - unfold force. rewrite Eb1 in *. change (text_eqb [] (T "!")) with false. exists b1. split; [|split; [reflexivity|split; [reflexivity|split; [auto|]]]].
      + rewrite (o_is_rest _ _ _ R3). destruct (starts_with (fun y => y =? C "!") ([] ++ white ++ opts ++ rest)) eqn:E; [|reflexivity]. apply starts_is_begins in E.
        specialize (Himp E). cbn [In] in Himp. destruct Himp as [<-|[<-|[<-|[]]]]; reflexivity.
      + rewrite andb_false_r. reflexivity. }
  destruct Hforce as [b2 [Ef [Eb2 [S4 [R4 Efl]]]]].
  assert (Hd : exists d, (if negb (text_eqb (c_name x) (T "!")) then skip_white b2 else b2) = d /\ spells white b2 d /\ rest_of d (opts ++ rest)).
  { destruct (text_eqb (c_name x) (T "!")) eqn:E; cbn [negb].
    - apply text_eqb_eq in E. rewrite (Hargs1 E) in *. exists b2. repeat split; auto.
    - exists (skip_white b2). split; [reflexivity|]. apply skip_blank; auto. apply Hargs2. intros K. rewrite K in E. discriminate. }
  destruct Hd as [d [Ed [S5 R5]]].
  assert (Wd : wf d). { eapply spells_wf'; [|exact S5]. eapply spells_wf'; [|exact S4]. eapply spells_wf'; eauto. }
  destruct Hopts as [os [t1 [t2 [t3 [-> [Hos [O1 [O2 [O3 [O4 [O5 [Hown Hecmd]]]]]]]]]]]].
  rewrite <- !app_assoc in R5. set (e2 := ea_set_argpos (getpos d) (ea_set_cmd x force (ea_set_cmdpos (getpos b) e0))).
  assert (Ha : exists e3 d1, (if has_flag (T "ARGOPT") x then parse_argopt e2 d else Ok (e2, d)) = Ok (e3, d1) /\ spells t1 d d1 /\ rest_of d1 (t2 ++ t3 ++ rest) /\ opts_set os e2 e3 /\ kept_fields e2 e3).
  { unfold has_flag. fold (flag (T "ARGOPT") x). destruct (flag (T "ARGOPT") x).
    - unfold parse_argopt. eapply options_back; eauto. pose proof (rest_clen _ _ _ R5). lia.
    - destruct Hos as [-> ->]. exists e2, d. repeat split; auto. }
  destruct Ha as [e3 [d1 [E3 [S6 [R6 [O6 [K1 [K2 K3]]]]]]]].
  assert (Hown2 : own e3 = (force, 0, false, 0)) by (rewrite K2; reflexivity).
  destruct (own_back (c_name x) (getpos b) _ _ _ _ _ _ _ e3 d1 Hown Hown2 R6) as [e4 [d2 [e5 [d3 [e6 [d4 [E4 [E5 [E6 [S7 [R7 [O7 [K4 [K5 K6]]]]]]]]]]]]]].
  { eapply spells_wf'; eauto. }
  assert (Hu : ea_usefilter e6 = hf_usefilter h) by (unfold own in O7; congruence).
  destruct (ecmd_back (has_flag (T "EDITCMD") x && negb (ea_usefilter e6)) rest t3 (hf_ecmd h) e6 d4) as [e7 [k [E7 [S8 [R8 [O8 [K7 [K8 K9]]]]]]]]; auto.
  { rewrite Hu. exact Hecmd. } { rewrite K6, K3. reflexivity. }
  exists a, b, d, k, e7, ch'. split; [auto|]. split; [auto|]. split; [eapply spells_app; eauto; eapply spells_app; eauto|]. split; [eapply spells_app; eauto; eapply spells_app; eauto|].
  split; [auto|]. split; [auto|].
  assert (Hfix : fixed e7 = fixed e2) by congruence. assert (Hown7 : own e7 = (hf_forceit h, hf_append h, hf_usefilter h, hf_amount h)) by congruence.
  assert (Hop7 : opts e7 = opts e3) by congruence. unfold fixed, own, opts in Hfix, Hown7, Hop7.
  injection Hfix as F1 F2 F3 F4 F5 F6. injection Hown7 as G1 G2 G3 G4. injection Hop7 as P1 P2 P3 P4 P5. destruct O6 as [Q1 [Q2 [Q3 [Q4 Q5]]]].
  split.
  { unfold head_of. rewrite F5, F6, G1, G2, G3, G4, O8, P1, P2, P3, P4, P5, Q1, Q2, Q3, Q4, Q5. destruct h; cbn in *. subst. reflexivity. }
  split; [rewrite F4; reflexivity|]. split; [rewrite F1; reflexivity|]. split; [rewrite F2; reflexivity|]. split; [rewrite F3; reflexivity|]. split; [auto|].
  rewrite E1. match goal with |- bind ?p _ = bind ?q _ => assert (E : p = q); [|rewrite E; reflexivity] end.
  unfold parse_command. cbn [cur]. rewrite <- Eb, (peek1_rest _ _ R2). rewrite E0 in Hq0 |- *. cbn [starts_with] in Hq0.
  replace (r0 =? C """") with false by (cbn in Hq0; cbn; clear - Hq0; lia). unfold with_cur. cbn [cur ctx cache]. rewrite E2. cbn [cur ctx cache]. rewrite Ef, Eb2, Efl, Ed.
  fold e2. rewrite E3. cbn [bind]. rewrite E4. cbn [bind]. rewrite E5, E6, E7. reflexivity.
Qed.
