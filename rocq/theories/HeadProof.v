(** The reading functions of a command head give what [Head] says. *)
From Coq Require Import Lia ZifyBool ZifyNat ZifyN.
From Verif Require Import Base CharClass Reader Vnode Tokenizer ExprParser CmdTable CmdParser
  Cursor Grammar TokSafe ExprSafe Script CmdBase CmdArgs.

(** * Lines *)

Lemma all_white_iff s : forallb iswhite s = true <-> all_white s.
Proof.
  unfold all_white. rewrite forallb_forall. split; intros H r Hr; specialize (H r Hr);
    unfold iswhite in *; [|cbv in H]; lia.
Qed.

Lemma read_longest f c s c' t : read_while f c = (s, c') -> rest_of c' t ->
  spells s c c' /\ forallb f s = true /\ starts_with f t = false.
Proof.
  intros H Ht. apply read_while_spells in H. destruct H as [H1 [H2 H3]]. repeat split; auto.
  pose proof (peek1_rest _ _ Ht) as Hp. destruct t as [|r t]; auto. cbn. apply H3. auto.
Qed.
Lemma skip_longest f c t : rest_of (skip_while f c) t ->
  exists s, spells s c (skip_while f c) /\ forallb f s = true /\ starts_with f t = false.
Proof.
  intros Ht. unfold skip_while in *. destruct (read_while f c) as [s c'] eqn:E. exists s.
  eapply read_longest; eauto.
Qed.

Lemma longest_fun f (u v s t : text) : u ++ s = v ++ t -> forallb f u = true -> forallb f v = true ->
  starts_with f s = false -> starts_with f t = false -> u = v /\ s = t.
Proof.
  revert v; induction u as [|a u IH]; intros [|b v] H Hu Hv Hs Ht; cbn in *; auto.
  - subst s. cbn in Hs. apply andb_true_iff in Hv. destruct Hv. congruence.
  - subst t. cbn in Ht. apply andb_true_iff in Hu. destruct Hu. congruence.
  - inversion H; subst. apply andb_true_iff in Hu. apply andb_true_iff in Hv.
    destruct Hu, Hv. destruct (IH v) as [-> ->]; auto.
Qed.

Lemma starts_is_begins r s : starts_with (fun x => x =? r) s = true <-> begins [r] s.
Proof.
  unfold begins. destruct s as [|x s]; cbn [starts_with]; split.
  - discriminate.
  - intros [t H]; discriminate.
  - intros H. apply N.eqb_eq in H. subst. exists s. reflexivity.
  - intros [t H]; inversion H. apply N.eqb_refl.
Qed.
Lemma not_begins r s : starts_with (fun x => x =? r) s = false -> ~ begins [r] s.
Proof. intros H K. apply starts_is_begins in K. congruence. Qed.

(** * Modifiers *)

Lemma modifier_tables : forall x, In x modifier_table <-> In x modifier_names.
Proof.
  intros x. split; unfold modifier_table, modifier_names; cbn [In]; intros H;
    repeat (destruct H as [H|H]; [subst x; auto 25|]); contradiction.
Qed.

Lemma find_modifier_some tbl k name : find_modifier tbl k = Some name ->
  exists m, In (name, m) tbl /\ begins k name /\ (m <= length k)%nat.
Proof.
  induction tbl as [|[n m] tbl IH]; cbn [find_modifier]; [discriminate|].
  destruct (is_prefix k n && Nat.leb m (length k)) eqn:E.
  - intros H; inversion H; subst. apply andb_true_iff in E. destruct E as [E1 E2].
    apply is_prefix_app in E1. apply Nat.leb_le in E2. exists m. cbn; auto.
  - intros H. destruct (IH H) as [m' [K1 K2]]. exists m'. cbn; auto.
Qed.
Lemma find_modifier_none tbl k : find_modifier tbl k = None ->
  forall name m, In (name, m) tbl -> begins k name -> (m <= length k)%nat -> False.
Proof.
  induction tbl as [|[n m0] tbl IH]; cbn [find_modifier]; [intros _ ? ? []|].
  destruct (is_prefix k n && Nat.leb m0 (length k)) eqn:E; [discriminate|].
  intros H name m [K|K] H1 H2; [|eauto]. inversion K; subst.
  apply is_prefix_app in H1. apply Nat.leb_le in H2. rewrite H1, H2 in E. discriminate.
Qed.
Lemma modifier_found k name : find_modifier modifier_table k = Some name -> modifier_word k name.
Proof.
  intros H. apply find_modifier_some in H. destruct H as [m [H1 H2]]. exists m.
  apply modifier_tables in H1. auto.
Qed.
Lemma modifier_not_found k name : find_modifier modifier_table k = None -> ~ modifier_word k name.
Proof.
  intros H [m [H1 [H2 H3]]]. apply modifier_tables in H1. eapply find_modifier_none; eauto.
Qed.

Lemma modifier_letters k name : modifier_word k name -> k <> [] /\ forallb isalpha k = true.
Proof.
  intros [m [H1 [[r H2] H3]]].
  assert (A : forallb (fun x => Nat.ltb 0 (snd x) && forallb isalpha (fst x)) modifier_names = true)
    by reflexivity.
  rewrite forallb_forall in A. specialize (A _ H1). cbn [fst snd] in A.
  apply andb_true_iff in A. destruct A as [A1 A2]. apply Nat.ltb_lt in A1. split.
  - intros ->. cbn in H3. lia.
  - rewrite H2 in A2. rewrite forallb_app in A2. apply andb_true_iff in A2. apply A2.
Qed.

Lemma digit_not_white r : isdigit r = true -> iswhite r = false.
Proof. unfold isdigit, between, iswhite. lia. Qed.
Lemma digit_not_alpha r : isdigit r = true -> isalpha r = false.
Proof. unfold isdigit, isalpha, isupper, islower, between. lia. Qed.
Lemma white_not_alpha r : iswhite r = true -> isalpha r = false.
Proof. unfold iswhite, isalpha, isupper, islower, between. lia. Qed.

(** The count and the word at the start of a line are determined. *)
Lemma counted_fun d w k t d' w' k' t' :
  d ++ w ++ k ++ t = d' ++ w' ++ k' ++ t' ->
  counted_word d w k t -> forallb isalpha k = true -> starts_with isdigit (w ++ k ++ t) = false ->
  starts_with iswhite (k ++ t) = false \/ d = [] ->
  counted_word d' w' k' t' -> forallb isalpha k' = true -> k' <> [] ->
  d = d' /\ w = w' /\ k = k' /\ t = t'.
Proof.
  intros E [D1 [D2 [D3 D4]]] Hk S1 S2 [E1 [E2 [E3 E4]]] Hk' Hne.
  destruct k' as [|a' k0']; [congruence|].
  assert (Ha : isalpha a' = true) by (cbn in Hk'; apply andb_true_iff in Hk'; apply Hk').
  assert (S1' : starts_with isdigit (w' ++ (a' :: k0') ++ t') = false).
  { destruct w' as [|r w']; cbn.
    - destruct (isdigit a') eqn:X; auto. apply digit_not_alpha in X. congruence.
    - assert (iswhite r = true) by (apply all_white_iff in E2; cbn in E2; apply andb_true_iff in E2; apply E2).
      destruct (isdigit r) eqn:X; auto. apply digit_not_white in X. congruence. }
  destruct (longest_fun isdigit d d' _ _ E D1 E1 S1 S1') as [-> E5].
  assert (Ew : w = w' /\ k ++ t = (a' :: k0') ++ t').
  { destruct d' as [|x d'].
    - rewrite (D3 eq_refl), (E3 eq_refl) in *. auto.
    - destruct S2 as [S2|S2]; [|discriminate].
      apply (longest_fun iswhite); auto; try (apply all_white_iff; auto).
      cbn. destruct (iswhite a') eqn:X; auto. apply white_not_alpha in X. congruence. }
  destruct Ew as [-> Ew].
  destruct (longest_fun isalpha k (a' :: k0') _ _ Ew Hk Hk' D4 E4) as [-> ->]. auto.
Qed.

Lemma ends_iff c t : rest_of c t -> (ends_excmds1 (peek1 c) = true <-> ends_command t).
Proof.
  intros H. rewrite (peek1_rest _ _ H). unfold ends_command. destruct t as [|r t]; cbn [ends_excmds1].
  - tauto.
  - rewrite orb_true_iff, !N.eqb_eq. unfold begins. split.
    + intros [->| ->]; right; [left|right]; exists t; reflexivity.
    + intros [H1|[[s H1]|[s H1]]]; inversion H1; auto.
Qed.

Lemma modifiers_text_ok : forall n c ms c' rest, modifiers_loop n c = Ok (ms, c') -> rest_of c' rest ->
  exists tm, spells tm c c' /\ modifiers_text rest tm ms.
Proof.
  induction n as [|n IH]; intros c ms c' rest; cbn [modifiers_loop]; [discriminate|].
  match goal with |- (let '(d, c1) := ?e in _) = _ -> _ => destruct e as [d c1] eqn:Ed end.
  unfold read_alpha. destruct (read_while isalpha c1) as [k c2] eqn:Ek.
  destruct (rest_exists c2) as [t2 Ht2].
  destruct (read_longest _ _ _ _ _ Ek Ht2) as [Sk [Ak Lk]].
  assert (Hd : exists w, spells (d ++ w) c c1 /\ counted_word d w k t2 /\
     starts_with isdigit (w ++ k ++ t2) = false /\ (starts_with iswhite (k ++ t2) = false \/ d = [])).
  { pose proof (rest_app _ _ _ _ Sk Ht2) as Hr1.
    destruct (o_in isdigit (peek1 c)) eqn:E.
    - unfold read_digit in Ed. destruct (read_while isdigit c) as [d0 c0] eqn:E2.
      inversion Ed; subst d0 c1; clear Ed.
      destruct (skip_longest iswhite c0 (k ++ t2) Hr1) as [w [W1 [W2 W3]]].
      fold (skip_white c0) in *.
      pose proof (rest_app _ _ _ _ W1 Hr1) as Hr0.
      destruct (read_longest _ _ _ _ _ E2 Hr0) as [D1 [D2 D3]].
      exists w. split; [eapply spells_app; eauto|]. repeat split; auto.
      + apply all_white_iff; auto.
      + intros ->. cbn in D1. subst c0. pose proof (rest_app _ _ _ _ W1 Hr1) as Hc.
        rewrite (o_in_rest _ _ _ Hc) in E. congruence.
    - inversion Ed; subst d c1. exists []. cbn [app]. repeat split; auto.
      + intros r [].
      + rewrite (o_in_rest _ _ _ Hr1) in E. exact E. }
  destruct Hd as [w [Sd [Hcw [Hs1 Hs2]]]].
  destruct (find_modifier modifier_table k) as [name|] eqn:Ef.
  2: { intros H Hr; inversion H; subst; clear H. exists []. split; [reflexivity|]. apply ms_nil.
       pose proof (rest_app _ _ _ _ Sd (rest_app _ _ _ _ Sk Ht2)) as Hc.
       pose proof (rest_unique _ _ _ Hr Hc) as ->.
       intros [d' [w' [k' [t' [name [E [Hc' Hm]]]]]]].
       destruct (modifier_letters _ _ Hm) as [M1 M2]. rewrite <- app_assoc in E.
       destruct (counted_fun _ _ _ _ _ _ _ _ E Hcw Ak Hs1 Hs2 Hc' M2 M1) as [-> [-> [-> ->]]].
       eapply modifier_not_found; eauto. }
  pose proof (modifier_found _ _ Ef) as Hm.
  destruct (rest_exists (skip_white c2)) as [t3 Ht3].
  destruct (skip_longest iswhite c2 t3 Ht3) as [w2 [W1 [W2 W3]]]. fold (skip_white c2) in W1.
  pose proof (rest_unique _ _ _ Ht2 (rest_app _ _ _ _ W1 Ht3)) as Et2.
  assert (Sall : spells (d ++ w ++ k ++ w2) c (skip_white c2)).
  { rewrite app_assoc. eapply spells_app; eauto. eapply spells_app; eauto. }
  destruct (text_eqb name (T "hide") && ends_excmds1 (peek1 c2)) eqn:Eh.
  { apply andb_true_iff in Eh. destruct Eh as [Eh1 Eh2]. apply text_eqb_eq in Eh1. subst name.
    apply (ends_iff _ _ Ht2) in Eh2. intros H Hr; inversion H; subst ms c'; clear H.
    assert (w2 = []).
    { destruct w2 as [|r w2]; auto. exfalso. cbn in W2. apply andb_true_iff in W2. destruct W2 as [W2 _].
      subst t2. destruct Eh2 as [Eh2|[[s Eh2]|[s Eh2]]]; [discriminate| |]; cbn in Eh2; inversion Eh2; subst r; discriminate. }
    subst w2. cbn in W1. rewrite <- W1 in *. rewrite (rest_unique _ _ _ Hr Ht2).
    exists (d ++ w ++ k). split. rewrite app_nil_r in Sall. auto. apply ms_hide; auto. }
  assert (Hhide : name = T "hide" -> ~ ends_command t2).
  { intros -> K. apply (ends_iff _ _ Ht2) in K. rewrite K in Eh. discriminate. }
  assert (Hnext : forall m c4 s, spells s c c4 -> (forall t, rest_of c4 t -> modifier_text t s m) ->
    (let* '(ms0, c5) := modifiers_loop n c4 in Ok (m :: ms0, c5)) = Ok (ms, c') -> rest_of c' rest ->
    exists tm, spells tm c c' /\ modifiers_text rest tm ms).
  { intros m c4 s Sp Hmt. destruct (modifiers_loop n c4) as [[ms0 c5]| | |] eqn:El; cbn [bind]; try discriminate.
    intros H Hr; inversion H; subst; clear H. destruct (IH _ _ _ _ El Hr) as [tm [T1 T2]].
    exists (s ++ tm). split. eapply spells_app; eauto. apply ms_cons; auto.
    apply Hmt. eapply rest_app; eauto. }
  pose proof (proj1 (all_white_iff _) W2) as W2'.
  assert (Hword : forall t, rest_of (skip_white c2) t -> t = t3) by (intros t Ht; eapply rest_unique; eauto).
  destruct (text_eqb name (T "silent")) eqn:Esil.
  { apply text_eqb_eq in Esil. subst name.
    destruct (o_is (peek1 c2) (C "!")) eqn:Eb; cbn [bind].
    - apply o_is_peek1 in Eb. destruct Eb as [p [t Eb]].
      assert (skip_white c2 = c2) by (rewrite Eb; reflexivity). rewrite H. rewrite Eb. cbn [get snd].
      destruct (rest_tail (C "!") p t t2) as [t4 [Et4 Ht4]]. rewrite <- Eb; auto.
      apply (Hnext _ _ (d ++ w ++ k ++ T "!")).
      + rewrite app_assoc. eapply spells_app; eauto. eapply spells_app; eauto. rewrite Eb. cbn. auto.
      + intros t0 Ht0. assert (Ex : t0 = t4) by (eapply rest_unique; eauto). rewrite Ex. clear Ex t0 Ht0.
        apply mt_silent_bang; auto. rewrite Et4 in Hcw. exact Hcw.
    - apply (Hnext _ _ _ Sall). intros t0 Ht0. rewrite (Hword _ Ht0). apply mt_silent; auto; rewrite <- ?Et2; auto.
      rewrite (o_is_rest _ _ _ Ht2) in Eb. apply not_begins; auto. }
  assert (Hns : name <> T "silent") by (intros ->; discriminate Esil).
  assert (Hother : forall nn, modifier_count name d nn ->
    (let* '(ms0, c5) := modifiers_loop n (skip_white c2) in Ok (mkMod name None nn :: ms0, c5)) = Ok (ms, c') ->
    rest_of c' rest -> exists tm, spells tm c c' /\ modifiers_text rest tm ms).
  { intros nn Hc. apply (Hnext _ _ _ Sall). intros t0 Ht0. rewrite (Hword _ Ht0).
    apply mt_other; auto; rewrite <- ?Et2; auto. }
  assert (Hnum : forall nn, str2nr d = Ok nn -> nn = Z.of_N (decimal d) /\ decimal d <= 2147483647).
  { intros nn. unfold str2nr. rewrite digits_val_fold. fold (decimal d).
    destruct (decimal d <=? 2147483647) eqn:Ele; [|discriminate]. intros H; inversion H; split; [auto|apply N.leb_le; auto]. }
  destruct (text_eqb name (T "tab")) eqn:Etab.
  { apply text_eqb_eq in Etab. destruct d as [|d0 d1]; cbn [is_nil bind].
    - apply Hother. left. split; [auto|split; [vm_compute; discriminate|auto]].
    - destruct (str2nr (d0 :: d1)) as [z| | |] eqn:Ez; cbn [bind]; try discriminate.
      apply Hother. left. destruct (Hnum _ eq_refl) as [-> Hle]. auto. }
  destruct (text_eqb name (T "verbose")) eqn:Ever.
  { apply text_eqb_eq in Ever. destruct d as [|d0 d1]; cbn [is_nil bind].
    - apply Hother. right; left. split; [auto|split; [vm_compute; discriminate|auto]].
    - destruct (str2nr (d0 :: d1)) as [z| | |] eqn:Ez; cbn [bind]; try discriminate.
      apply Hother. right; left. destruct (Hnum _ eq_refl) as [-> Hle]. auto. }
  cbn [bind]. apply Hother. right; right. repeat split; auto.
  intros ->; discriminate Etab. intros ->; discriminate Ever.
Qed.

(** * Ranges *)

Lemma white_or r : iswhite r = true -> r = 32 \/ r = 9.
Proof. unfold iswhite. change (C " ") with 32. lia. Qed.
Lemma one_of_In l r : one_of l r = true <-> In r l.
Proof.
  unfold one_of. rewrite existsb_exists. split.
  - intros [x [H1 H2]]. apply N.eqb_eq in H2. subst; auto.
  - intros H. exists r. split; auto. apply N.eqb_refl.
Qed.
Lemma starts_ext f g s : (forall r, f r = g r) -> starts_with f s = starts_with g s.
Proof. intros H. destruct s; cbn; auto. Qed.
Lemma starts_no f g s : starts_with f s = false -> (forall r, f r = false -> g r = false) -> starts_with g s = false.
Proof. intros H1 H2. destruct s; cbn in *; auto. Qed.
Lemma white_max c rest : rest_of (skip_white c) rest ->
  exists w, spells w c (skip_white c) /\ all_white w /\ starts_with iswhite rest = false.
Proof.
  intros H. destruct (skip_longest iswhite c rest H) as [w [H1 [H2 H3]]]. exists w.
  split; [exact H1|split; [apply all_white_iff; auto|auto]].
Qed.
Lemma at_end_spells s a b : at_end a -> spells s a b -> s = [] /\ a = b.
Proof.
  destruct s as [|r s]; cbn [spells]; auto. destruct a as [|[|x] p t]; cbn; try contradiction.
  discriminate.
Qed.

Lemma read_integer_ok c s c' rest : read_integer c = (s, c') -> rest_of c' rest -> spells s c c' /\
  ((s = [] /\ c' = c /\ starts_with (one_of (T "+-0123456789")) rest = false) \/
   (s <> [] /\ offset s /\ starts_with isdigit rest = false)).
Proof.
  intros H Hr. split. { eapply read_integer_spells; eauto. }
  revert H. unfold read_integer, read_digit. destruct (o_in _ (peek1 c)) eqn:E.
  - apply o_in_peek1 in E. destruct E as [r [p [t [-> E]]]]. cbn [getn].
    destruct (read_while isdigit t) as [d c2] eqn:E2. intros H; inversion H; subst s c'. right.
    destruct (read_longest _ _ _ _ _ E2 Hr) as [R1 [R2 R3]]. split; [discriminate|]. split; [|auto].
    cbn [app]. apply off_sign; auto. cbn beta in E. cbn. lia.
  - destruct (read_while isdigit c) as [d c2] eqn:E2. intros H; inversion H; subst d c2. 
    destruct (read_longest _ _ _ _ _ E2 Hr) as [R1 [R2 R3]]. destruct s as [|x s].
    + left. cbn in R1. subst c'. split; [auto|split; [auto|]]. rewrite (o_in_rest _ _ _ Hr) in E.
      destruct rest as [|y rest]; auto. cbn [starts_with] in *. cbn. unfold isdigit, between in R3. lia.
    + right. split; [discriminate|]. split; [|auto]. apply off_number; [discriminate|exact R2].
Qed.

Lemma range_ints_ok : forall n c l c' rest, range_ints n c = Ok (l, c') -> rest_of c' rest ->
  exists s, spells s c c' /\ offsets rest s l.
Proof.
  induction n as [|n IH]; intros c l c' rest; cbn [range_ints]; [discriminate|].
  destruct (peek1 (skip_white c)) as [x|] eqn:Ep.
  2: { intros H Hr; inversion H; subst. destruct (white_max _ _ Hr) as [w [W1 [W2 W3]]]. exists w. split; [auto|].
       apply of_end; auto. rewrite (peek1_rest _ _ Hr) in Ep. destruct rest; [reflexivity|discriminate]. }
  destruct (read_integer (skip_white c)) as [s c1] eqn:E.
  destruct (rest_exists c1) as [r1 Hr1]. destruct (read_integer_ok _ _ _ _ E Hr1) as [Hs Hcase].
  destruct (white_max _ _ (rest_app _ _ _ _ Hs Hr1)) as [w [W1 [W2 W3]]].
  destruct Hcase as [[-> [-> Ho]]|[Hne [Ho Hd]]].
  - cbn [is_nil]. intros H Hr; inversion H; subst. rewrite (rest_unique _ _ _ Hr Hr1). exists w. split; [auto|].
    apply of_end; auto. cbn [app] in W3. destruct r1 as [|y r1]; auto. cbn [starts_with] in *. revert Ho W3.
    unfold iswhite, one_of. cbn. lia.
  - destruct s as [|y s]; [congruence|]. cbn [is_nil].
    destruct (range_ints n c1) as [[ss c2]| | |] eqn:E2; cbn [bind]; try discriminate.
    intros H Hr; inversion H; subst. destruct (IH _ _ _ rest E2 Hr) as [s2 [S1 S2]].
    exists (w ++ (y :: s) ++ s2). split. { eapply spells_app; eauto. eapply spells_app; eauto. }
    apply of_cons; auto. rewrite <- (rest_unique _ _ _ Hr1 (rest_app _ _ _ _ S1 Hr)). auto.
Qed.

Lemma pattern_ok delim n c inb s e c' : (clen c <= n)%nat ->
  pattern_loop delim inb c = Ok (s, e, c') -> pattern_post delim inb c (s, e, c').
Proof.
  intros Hn E. pose proof (pattern_safe c delim n c inb Hn (sfx_refl c)) as H. rewrite E in H. exact H.
Qed.

Lemma at_end_rest c s : at_end c -> rest_of c s -> s = [].
Proof. intros H [z [K1 K2]]. apply (at_end_spells _ _ _ H) in K1. tauto. Qed.

Lemma range_spec_ok r p t l go c' rest : wf (Cons (R r) p t) ->
  range_spec r (Cons (R r) p t) = Ok (l, go, c') -> rest_of c' rest ->
  exists s, spells s (Cons (R r) p t) c' /\
    ((go = true /\ line_spec rest s l) \/ (go = false /\ s = T "'" /\ l = [] /\ rest = [])).
Proof.
  intros Hw. unfold range_spec.
  destruct ((r =? C ".") || (r =? C "$")) eqn:E1.
  { cbn [getn]. intros H Hr; inversion H; subst. exists [r]. split; [cbn; auto|]. left. split; [auto|].
    apply ls_sign. cbn. lia. }
  destruct (r =? C "'") eqn:Eq.
  { apply N.eqb_eq in Eq. subst r. cbn [getn snd].
    destruct t as [p1|[|r2] p1 t2]; cbn [getn is_nil]; intros H Hr; inversion H; subst.
    - exists (T "'"). split; [cbn; auto|]. right. repeat split. eapply at_end_rest; [|exact Hr]. reflexivity.
    - exists (T "'"). split; [cbn; auto|]. right. repeat split. eapply at_end_rest; [|exact Hr]. reflexivity.
    - exists [C "'"; r2]. split; [cbn; auto|]. left. split; [auto|]. apply (ls_mark _ r2). }
  destruct ((r =? C "/") || (r =? C "?")) eqn:Esl.
  { assert (Hd : In r (T "/?")) by (cbn; lia).
    cbn [getn snd]. unfold parse_pattern.
    destruct (pattern_loop r 0 t) as [[[s e] c2]| | |] eqn:E; cbn [bind]; try discriminate.
    intros H Hr; inversion H; subst. apply (pattern_ok r (clen t)) in E; [|lia]. cbn [pattern_post] in E.
    destruct e.
    - destruct E as [E0 [q E]]. exists (r :: s ++ [r]). split.
      + cbn [spells]. split; auto. eapply spells_app; eauto. cbn. auto.
      + left. split; [auto|]. apply ls_pattern; auto.
    - destruct E as [[j E0] [E1' E2]]. exists (r :: s). split. cbn [spells]. auto.
      left. split; [auto|]. eapply ls_open; eauto. eapply at_end_rest; eauto. }
  destruct (r =? 92) eqn:Eb.
  { apply N.eqb_eq in Eb. subst r. rewrite p_S, p_0 by auto. cbn [bind].
    destruct (ch_is (peek t) (C "&") || ch_is (peek t) (C "?") || ch_is (peek t) (C "/")) eqn:Em; [|discriminate].
    destruct t as [p1|[|r2] p1 t2]; try discriminate Em. cbn [seek_cur bind].
    intros H Hr; inversion H; subst. exists [92; r2]. split; [cbn; auto|]. left. split; [auto|].
    apply (ls_last _ r2). cbn [peek ch_of_cell ch_is] in Em. cbn. lia. }
  destruct (isdigit r) eqn:Ed.
  { unfold read_digit. destruct (read_while isdigit (Cons (R r) p t)) as [s c1] eqn:E3.
    intros H Hr; inversion H; subst. destruct (read_longest _ _ _ _ _ E3 Hr) as [R1 [R2 R3]].
    exists s. split; [auto|]. left. split; [auto|]. apply ls_number; auto.
    intros ->. cbn [read_while] in E3. rewrite Ed in E3. destruct (read_while isdigit t). discriminate. }
  intros H Hr; inversion H; subst. exists []. split; [reflexivity|]. left. split; [auto|]. apply ls_none.
  apply rest_tail in Hr. destruct Hr as [s' [-> _]]. cbn. unfold isdigit, between in Ed. lia.
Qed.

Lemma range_inner_ok : forall n c l c' rest, wf c -> range_inner n c = Ok (l, c') -> rest_of c' rest ->
  exists s, spells s c c' /\ line_address rest s l.
Proof.
  induction n as [|n IH]; intros c l c' rest Hw; cbn [range_inner]; [discriminate|].
  assert (Hw1 : wf (skip_white c)) by (eapply wf_sfx; [apply skip_while_sfx|auto]).
  destruct (rest_exists (skip_white c)) as [r0 Hr0]. destruct (white_max _ _ Hr0) as [w [W1 [W2 W3]]].
  destruct (peek1 (skip_white c)) as [r|] eqn:Ep.
  2: { intros H Hr; inversion H; subst. rewrite (peek1_rest _ _ Hr0) in Ep. destruct r0; [|discriminate].
       rewrite (rest_unique _ _ _ Hr Hr0). exists (w ++ [] ++ []). split. { cbn [app]. rewrite app_nil_r. auto. }
       apply (ad_last [] w [] [] [] []); auto; try reflexivity. apply ls_none; reflexivity.
       apply of_end. intros ? []. reflexivity. }
  apply peek1_some in Ep. destruct Ep as [p [t Ep]]. rewrite Ep in *.
  destruct (range_spec r (Cons (R r) p t)) as [[[toks go] c1]| | |] eqn:E; cbn [bind]; try discriminate.
  destruct (rest_exists c1) as [r1 Hr1]. destruct (range_spec_ok _ _ _ _ _ _ _ Hw1 E Hr1) as [s1 [S1 Hcase]].
  pose proof (rest_unique _ _ _ Hr0 (rest_app _ _ _ _ S1 Hr1)) as Er0.
  destruct Hcase as [[-> Hls]|[-> [-> [-> ->]]]]; cbn [negb].
  2: { intros H Hr; inversion H; subst. rewrite (rest_unique _ _ _ Hr Hr1). exists (w ++ T "'").
       split; [eapply spells_app; eauto|]. apply ad_lone; auto. }
  destruct (range_ints (S (clen c1)) c1) as [[ints c2]| | |] eqn:E2; cbn [bind]; try discriminate.
  destruct (rest_exists c2) as [r2 Hr2]. destruct (range_ints_ok _ _ _ _ _ E2 Hr2) as [s2 [S2 Ho]].
  pose proof (rest_unique _ _ _ Hr1 (rest_app _ _ _ _ S2 Hr2)) as Er1.
  assert (Hw2 : wf c2).
  { apply spells_sfx in S1, S2. eapply wf_sfx; [eapply sfx_trans; eauto|auto]. }
  assert (Hsl : (ch_is (peek c2) (C "/") || ch_is (peek c2) (C "?")) = starts_with (one_of (T "/?")) r2).
  { pose proof (peek1_rest _ _ Hr2) as Hp. destruct c2 as [q|[|x] q u]; cbn [peek1] in Hp; destruct r2 as [|y r2]; try discriminate Hp; auto.
    inversion Hp; subst y. cbn. rewrite orb_false_r. reflexivity. }
  rewrite p_0. cbn [bind]. rewrite Hsl. destruct (starts_with (one_of (T "/?")) r2) eqn:Esl.
  - destruct (range_inner n c2) as [[more c3]| | |] eqn:E3; cbn [bind]; try discriminate.
    intros H Hr; inversion H; subst. destruct (IH _ _ _ _ Hw2 E3 Hr) as [s3 [S3 Ha]].
    pose proof (rest_unique _ _ _ Hr2 (rest_app _ _ _ _ S3 Hr)) as Er2. rewrite Er2 in *.
    exists (w ++ s1 ++ s2 ++ s3). split. { repeat (eapply spells_app; eauto). }
    apply ad_search; auto.
  - intros H Hr; inversion H; subst. rewrite (rest_unique _ _ _ Hr Hr2) in *.
    exists (w ++ s1 ++ s2). split. { repeat (eapply spells_app; eauto). } apply ad_last; auto.
Qed.

Lemma range_loop_ok : forall n c l c' rest, wf c -> range_loop n c = Ok (l, c') -> rest_of c' rest ->
  exists s, spells s c c' /\ range_text rest s l.
Proof.
  induction n as [|n IH]; intros c l c' rest Hw; cbn [range_loop]; [discriminate|].
  destruct (range_inner (S (clen c)) c) as [[toks c1]| | |] eqn:E; cbn [bind]; try discriminate.
  destruct (rest_exists c1) as [r1 Hr1]. destruct (range_inner_ok _ _ _ _ _ Hw E Hr1) as [s1 [S1 Ha]].
  match goal with |- (let '(t2, c2) := ?e in _) = _ -> _ => destruct e as [t2 c2] eqn:E2 end.
  destruct (rest_exists c2) as [r2 Hr2].
  assert (H2 : exists s2, spells s2 c1 c2 /\ all_lines r2 s2 t2).
  { rewrite (o_in_rest _ _ _ Hr1) in E2. destruct (starts_with _ r1) eqn:Eo in E2.
    - destruct r1 as [|r r1]; [discriminate|]. pose proof (peek1_rest _ _ Hr1) as Hp. apply peek1_some in Hp.
      destruct Hp as [p [t ->]]. cbn [getn] in E2. inversion E2; subst. exists [r]. split; [cbn; auto|].
      apply al_sign. cbn [starts_with] in Eo. cbn. lia.
    - inversion E2; subst. rewrite (rest_unique _ _ _ Hr2 Hr1). exists []. split; [reflexivity|]. apply al_none.
      rewrite <- Eo. apply starts_ext. intros r. cbn. lia. }
  destruct H2 as [s2 [S2 Hal]]. rewrite (rest_unique _ _ _ Hr1 (rest_app _ _ _ _ S2 Hr2)) in *.
  rewrite (o_in_rest _ _ _ Hr2). destruct (starts_with _ r2) eqn:E4.
  - destruct r2 as [|r r2]; [discriminate|]. pose proof (peek1_rest _ _ Hr2) as Hp. apply peek1_some in Hp.
    destruct Hp as [p [t ->]]. cbn [getn].
    assert (Hw3 : wf t).
    { apply spells_sfx in S1, S2. eapply wf_tail. eapply wf_sfx; [eapply sfx_trans; eauto|auto]. }
    destruct (range_loop n t) as [[more c4]| | |] eqn:E5; cbn [bind]; try discriminate.
    intros H Hr; inversion H; subst. destruct (IH _ _ _ _ Hw3 E5 Hr) as [s3 [S3 Ht]].
    assert (r2 = s3 ++ rest). { destruct (rest_tail _ _ _ _ Hr2) as [u [Eu Hu]]. inversion Eu; subst u.
      eapply rest_unique; eauto. eapply rest_app; eauto. } subst r2.
    exists (s1 ++ s2 ++ r :: s3). split.
    { eapply spells_app; eauto. eapply spells_app; eauto. cbn [spells]. auto. }
    apply rt_sep; auto. cbn [starts_with] in E4. cbn. lia.
  - intros H Hr; inversion H; subst. rewrite (rest_unique _ _ _ Hr Hr2). exists (s1 ++ s2).
    split; [eapply spells_app; eauto|]. apply rt_last; auto. rewrite <- E4. apply starts_ext. intros r. cbn. lia.
Qed.

Lemma range_text_ok c l c' rest : wf c -> parse_range c = Ok (l, c') -> rest_of c' rest ->
  exists tr, spells tr c c' /\ range_text rest tr l.
Proof. intros Hw H Hr. eapply range_loop_ok; eauto. Qed.

(** * Command names *)

Lemma alnum_alpha r : isalpha r = true -> isalnum r = true.
Proof. unfold isalnum, isalpha, isdigit, between, isupper, islower. lia. Qed.
Lemma alnum_all s : forallb isalpha s = true -> forallb isalnum s = true.
Proof. rewrite !forallb_forall. intros H r Hr. apply alnum_alpha. auto. Qed.
Lemma alnum_not_white s : forallb isalnum s = true -> forallb (fun r => negb (iswhite r)) s = true.
Proof.
  rewrite !forallb_forall. intros H r Hr. apply H in Hr.
  unfold isalnum, isdigit, isalpha, isupper, islower, between, iswhite in *. lia.
Qed.

Lemma re_s_iff s : re_s_repeat (firstn 5 s) = true <-> repeats_s s.
Proof.
  split.
  - destruct s as [|a [|b [|x [|y [|z t]]]]]; cbn [firstn re_s_repeat].
    all: repeat match goal with |- (match ?n with _ => _ end) = true -> _ => destruct n end; try discriminate.
    all: intros H.
    all: try (apply (rs_g _)); try (apply (rs_I _)).
    all: try (apply rs_i; cbn; intros K; repeat rewrite negb_true_iff, ?orb_false_iff in H; lia).
    all: try (apply rs_r; lia).
    all: apply rs_c; cbn; lia.
  - destruct 1; cbn [firstn re_s_repeat app]; try reflexivity; cbn in *; lia.
Qed.

Lemma delete_iff nm : negb (text_eqb nm (T "del")) && re_delete_lp nm = true <-> delete_flag nm.
Proof.
  unfold re_delete_lp, delete_flag. rewrite andb_true_iff, negb_true_iff, mem_text_In, in_flat_map. split.
  - intros [H1 [d [H2 H3]]]. split. intros ->. discriminate H1. exists d. split.
    + cbn [In] in *. tauto.
    + cbn [In] in H3. destruct H3 as [H3|[H3|[]]]; auto.
  - intros [H1 [d [H2 H3]]]. split.
    + destruct (text_eqb nm (T "del")) eqn:E; auto. apply text_eqb_eq in E. contradiction.
    + exists d. split. cbn [In] in *. tauto. cbn [In]. destruct H3; auto.
Qed.

Lemma begins_firstn p s : text_eqb (firstn (length p) s) p = true <-> begins p s.
Proof.
  rewrite text_eqb_eq. unfold begins. split.
  - intros H. exists (skipn (length p) s). rewrite <- H at 1. symmetry. apply firstn_skipn.
  - intros [r ->]. rewrite firstn_app, Nat.sub_diag, firstn_all. cbn. apply app_nil_r.
Qed.

Lemma repeats_starts s : repeats_s s -> begins (T "s") s.
Proof. destruct 1; eexists; cbn [app]; reflexivity. Qed.

Lemma read_cmd_word c key c1 t : read_cmd_name c = (key, c1) -> key <> [] -> rest_of c1 t ->
  exists w, spells w c c1 /\ word_of (w ++ t) w key /\
    (key = w \/ (w = T "s" /\ key = T "substitute")) /\
    forallb (fun r => negb (iswhite r)) w = true /\ w <> [].
Proof.
  intros H Hne Ht. destruct (rest_exists c) as [l Hl].
  assert (Hw : forall w, spells w c c1 -> l = w ++ t).
  { intros w Hw. eapply rest_unique; eauto. eapply rest_app; eauto. }
  revert H. unfold read_cmd_name.
  rewrite (o_is_rest _ _ _ Hl), (o_is_rest _ _ _ Hl), (o_in_rest _ _ _ Hl), !(peekn_rest _ _ _ Hl).
  destruct (starts_with (fun x => x =? C "k") l) eqn:E1.
  { apply starts_is_begins in E1. destruct (peek1 c) as [r|] eqn:Ep.
    - pose proof Ep as Ep'. rewrite (peek1_rest _ _ Hl) in Ep'. apply peek1_some in Ep. destruct Ep as [p [u ->]].
      destruct E1 as [l' ->]. inversion Ep'; subst r. cbn [getn snd]. intros H; inversion H; subst.
      exists (T "k"). split; [cbn; auto|]. split; [|split; [auto|split; [reflexivity|discriminate]]].
      apply wo_k. exists t. reflexivity.
    - rewrite (peek1_rest _ _ Hl) in Ep. destruct E1 as [l' ->]. discriminate Ep. }
  assert (Nk : ~ begins (T "k") l) by (apply not_begins; auto).
  destruct (starts_with (fun x => x =? C "s") l && re_s_repeat (firstn 5 l)) eqn:E2.
  { apply andb_true_iff in E2. destruct E2 as [E2 E2']. apply re_s_iff in E2'.
    apply starts_is_begins in E2. destruct E2 as [l' El]. pose proof (peek1_rest _ _ Hl) as Hp.
    rewrite El in Hp. cbn in Hp. apply peek1_some in Hp. destruct Hp as [p [u ->]]. cbn [getn snd].
    intros H; inversion H; subst key c1.
    exists (T "s"). split; [cbn; auto|]. split; [|split; [auto|split; [reflexivity|discriminate]]].
    apply wo_s. rewrite <- (Hw (T "s")); auto. cbn. auto. }
  assert (Ns : ~ repeats_s l).
  { intros K. pose proof (repeats_starts _ K) as K2. apply re_s_iff in K. rewrite K in E2.
    apply starts_is_begins in K2. change [115] with (T "s") in *. change 115 with (C "s") in *.
    rewrite K2 in E2. discriminate. }
  destruct (starts_with is_special_cmd l) eqn:E3.
  { destruct l as [|r l']; [discriminate E3|]. cbn [starts_with] in E3.
    pose proof (peek1_rest _ _ Hl) as Hp. apply peek1_some in Hp. destruct Hp as [p [u ->]]. cbn [getn].
    intros H; inversion H; subst key c1. exists [r]. split; [cbn; auto|].
    assert (Hin : In r (T "@*!=><&~#")).
    { unfold is_special_cmd in E3. cbn in E3. cbn. lia. }
    split; [|split; [auto|split; [|discriminate]]].
    - apply wo_sign; auto. exists t. reflexivity.
    - cbn in Hin. cbn. repeat (destruct Hin as [<-|Hin]; [reflexivity|]). contradiction. }
  destruct (text_eqb (firstn 2 l) (T "py")) eqn:E4.
  { apply (begins_firstn (T "py")) in E4. unfold read_alnum. intros H.
    destruct (read_longest _ _ _ _ _ H Ht) as [R1 [R2 R3]].
    exists key. split; [auto|]. split; [|split; [auto|split; [apply alnum_not_white; auto|auto]]].
    rewrite <- (Hw _ R1). apply wo_py; auto. exists t. rewrite (Hw _ R1). auto. }
  assert (Npy : ~ begins (T "py") l).
  { intros K. apply (begins_firstn (T "py")) in K. cbn [length] in K. unfold text in *. congruence. }
  unfold read_alpha. destruct (read_while isalpha c) as [nm c2] eqn:E5.
  destruct (rest_exists c2) as [t2 Ht2].
  destruct (read_longest _ _ _ _ _ E5 Ht2) as [A1 [A2 A3]].
  assert (El2 : l = nm ++ t2) by (eapply rest_unique; eauto; eapply rest_app; eauto).
  destruct (negb (text_eqb nm (T "del")) && re_delete_lp nm) eqn:E6.
  - apply delete_iff in E6. intros H.
    assert (Hsplit : exists w r, nm = w ++ [r]).
    { destruct E6 as [_ [d [_ [->| ->]]]]; eauto. }
    destruct Hsplit as [w [r Hnm]].
    destruct (getn_firstn nm (length nm - 1) c c2 A1 ltac:(lia)) as [c' E7].
    rewrite E7 in H. inversion H; subst key c'.
    assert (Ek : firstn (length nm - 1) nm = w).
    { rewrite Hnm, app_length. cbn [length]. replace (length w + 1 - 1)%nat with (length w) by lia.
      rewrite firstn_app, Nat.sub_diag, firstn_all. cbn. apply app_nil_r. }
    rewrite Ek in *. apply getn_spells in E7. exists w.
    split; [auto|]. split; [|split; [auto|split; [|auto]]].
    + rewrite <- (Hw _ E7). apply (wo_delete _ w r); rewrite <- Hnm; auto. exists t2. auto.
    + apply alnum_not_white, alnum_all. rewrite Hnm, forallb_app in A2. apply andb_true_iff in A2. apply A2.
  - intros H; inversion H; subst key c2. exists nm.
    split; [auto|]. split; [|split; [auto|split; [apply alnum_not_white, alnum_all; auto|auto]]].
    rewrite <- (Hw _ A1). apply wo_letters; auto.
    + exists t2. auto.
    + intros K. apply delete_iff in K. congruence.
Qed.

(** A word with a capital is a word of letters. *)
Lemma upper_word line w key : word_of line w key -> starts_upper key = true ->
  key = w /\ longest isalpha w line.
Proof.
  destruct 1; intros Hu; try discriminate Hu; auto.
  - cbn in H. repeat (destruct H as [<-|H]; [discriminate Hu|]). contradiction.
  - exfalso. destruct H as [r ->]. destruct H0 as [s [E [H1 H2]]].
    destruct w as [|a w]; [discriminate Hu|]. inversion E; subst. discriminate Hu.
  - exfalso. destruct H0 as [_ [d [Hd Hw]]].
    destruct w as [|a w]; [discriminate Hu|]. cbn in Hu.
    cbn [In] in Hd. repeat (destruct Hd as [<-|Hd]; [destruct Hw as [Hw|Hw]; inversion Hw; subst; discriminate Hu|]).
    contradiction.
Qed.

Lemma rest_cons r s c : rest_of c (r :: s) -> exists p t, c = Cons (R r) p t /\ rest_of t s.
Proof.
  intros H. pose proof (peek1_rest _ _ H) as Hp. apply peek1_some in Hp. destruct Hp as [p [t ->]].
  destruct (rest_tail _ _ _ _ H) as [s' [E Hs]]. inversion E; subst. eauto.
Qed.
Lemma longest_same f u v line : longest f u line -> longest f v line -> u = v.
Proof.
  intros [a [E [H1 H2]]] [b [E' [H3 H4]]]. rewrite E in E'. exact (proj1 (longest_fun f u v a b E' H1 H3 H2 H4)).
Qed.
Lemma delete_first w : delete_flag w -> exists t, w = C "d" :: t.
Proof.
  intros [_ [d [I1 I2]]]. cbn in I1. repeat destruct I1 as [<-|I1]; try contradiction;
    destruct I2 as [->| ->]; eexists; reflexivity.
Qed.
Lemma longest_first f x w line : longest f (x :: w) line -> exists t, line = x :: t.
Proof. intros [u [-> _]]. cbn [app]. eauto. Qed.
Lemma s_first line : repeats_s line -> exists t, line = C "s" :: t.
Proof. destruct 1; cbn [app]; eexists; reflexivity. Qed.

Lemma word_of_fun line w k w' k' : word_of line w k -> word_of line w' k' -> w = w' /\ k = k'.
Proof.
  intros H H'.
  assert (F : forall a b, begins [a] line -> begins [b] line -> a = b).
  { intros a b [u ->] [u' E]. inversion E; auto. }
  assert (Fs : repeats_s line -> begins [C "s"] line) by (intros X; destruct (s_first _ X) as [t ->]; exists t; auto).
  assert (Fp : begins (T "py") line -> begins [C "p"] line) by (intros [t ->]; eexists; reflexivity).
  assert (Fd : forall v, longest isalpha v line -> delete_flag v -> begins [C "d"] line).
  { intros v X Y. destruct (delete_first _ Y) as [t ->]. destruct (longest_first _ _ _ _ X) as [u ->]. exists u; auto. }
  assert (Fl : forall v r, longest isalpha v line -> v <> [] -> begins [r] line -> isalpha r = true).
  { intros v r [u [-> [G _]]] X [u' Y]. destruct v; [congruence|]. inversion Y; subst. cbn in G. apply andb_true_iff in G. tauto. }
  assert (Sg : forall r, In r (T "@*!=><&~#") -> isalpha r = false).
  { intros r Hr. cbn in Hr. repeat destruct Hr as [<-|Hr]; try reflexivity. contradiction. }
  Ltac nofirst F a b := exfalso; assert (a = b) by (apply F; auto); discriminate.
  destruct H as [B1|B1|r I1 B1|w B1 L1|w r L1 D1|w L1 N1 K1 S1 P1 D1];
  destruct H' as [B2|B2|r' I2 B2|w' B2 L2|w' r' L2 D2|w' L2 N2 K2 S2 P2 D2]; auto; try contradiction.
  - nofirst F (C "k") (C "s").
  - assert (C "k" = r') by (apply F; auto). subst r'. specialize (Sg _ I2). discriminate.
  - nofirst F (C "k") (C "p").
  - exfalso. specialize (Fd _ L2 D2). nofirst F (C "k") (C "d").
  - nofirst F (C "s") (C "k").
  - assert (C "s" = r') by (apply F; auto). subst r'. specialize (Sg _ I2). discriminate.
  - nofirst F (C "s") (C "p").
  - exfalso. specialize (Fd _ L2 D2). nofirst F (C "s") (C "d").
  - assert (C "k" = r) by (apply F; auto). subst r. specialize (Sg _ I1). discriminate.
  - assert (C "s" = r) by (apply F; auto). subst r. specialize (Sg _ I1). discriminate.
  - assert (r = r') by (apply F; auto). subst; auto.
  - assert (C "p" = r) by (apply F; auto). subst r. specialize (Sg _ I1). discriminate.
  - specialize (Fd _ L2 D2). assert (C "d" = r) by (apply F; auto). subst r. specialize (Sg _ I1). discriminate.
  - pose proof (Fl _ _ L2 N2 B1). specialize (Sg _ I1). congruence.
  - nofirst F (C "p") (C "k").
  - nofirst F (C "p") (C "s").
  - assert (C "p" = r') by (apply F; auto). subst r'. specialize (Sg _ I2). discriminate.
  - assert (w = w') by (eapply longest_same; eauto). subst; auto.
  - exfalso. specialize (Fd _ L2 D2). nofirst F (C "p") (C "d").
  - exfalso. specialize (Fd _ L1 D1). nofirst F (C "d") (C "k").
  - exfalso. specialize (Fd _ L1 D1). nofirst F (C "d") (C "s").
  - specialize (Fd _ L1 D1). assert (C "d" = r') by (apply F; auto). subst r'. specialize (Sg _ I2). discriminate.
  - exfalso. specialize (Fd _ L1 D1). nofirst F (C "d") (C "p").
  - assert (E : w ++ [r] = w' ++ [r']) by (eapply longest_same; eauto). apply app_inj_tail in E. destruct E; subst; auto.
  - exfalso. apply D2. replace w' with (w ++ [r]); auto. eapply longest_same; eauto.
  - pose proof (Fl _ _ L1 N1 B2). specialize (Sg _ I2). congruence.
  - exfalso. apply D1. replace w with (w' ++ [r']); auto. eapply longest_same; eauto.
  - assert (w = w') by (eapply longest_same; eauto). subst; auto.
Qed.
Definition sign_char (r : N) : bool := isalpha r || one_of (T "@*!=><&~#") r.
Lemma one_of_iff l r : one_of l r = true <-> In r l.
Proof. unfold one_of. rewrite existsb_exists. split; [intros [x [H1 H2]]; apply N.eqb_eq in H2; subst; auto|intros H; exists r; split; [auto|apply N.eqb_refl]]. Qed.
Lemma word_starts line w k : word_of line w k -> exists r u, line = r :: u /\ sign_char r = true.
Proof.
  destruct 1 as [[t ->]|H|r H1 [t ->]|w [t ->] H|w r H1 H2|w H1 H2].
  - eexists; eexists; split; reflexivity.
  - inversion H; eexists; eexists; split; reflexivity.
  - exists r, t. split; auto. unfold sign_char. apply one_of_iff in H1. rewrite H1, orb_true_r. reflexivity.
  - eexists; eexists; split; reflexivity.
  - destruct H1 as [t [-> [H1 _]]]. destruct w as [|x w]; cbn [app forallb] in *; apply andb_true_iff in H1; destruct H1 as [H1 _]; eexists; eexists; (split; [reflexivity|]); unfold sign_char; rewrite H1; reflexivity.
  - destruct H1 as [t [-> [H1 _]]]. destruct w as [|x w]; [congruence|]. cbn [app forallb] in *; apply andb_true_iff in H1; destruct H1 as [H1 _]; eexists; eexists; (split; [reflexivity|]); unfold sign_char; rewrite H1; reflexivity.
Qed.
Lemma read_cmd_none c c1 r u : read_cmd_name c = ([], c1) -> rest_of c (r :: u) -> sign_char r = false.
Proof.
  intros E Hr. unfold read_cmd_name in E. rewrite (o_is_rest _ _ _ Hr), (o_is_rest _ _ _ Hr), (o_in_rest _ _ _ Hr) in E. cbn [starts_with] in E.
  destruct (r =? C "k"); [discriminate|]. destruct ((r =? C "s") && re_s_repeat (peekn 5 c)); [discriminate|].
  destruct (is_special_cmd r) eqn:Es.
  { apply rest_cons in Hr. destruct Hr as [p [t [-> _]]]. discriminate. }
  destruct (text_eqb (peekn 2 c) (T "py")) eqn:Ep.
  { unfold read_alnum in E. apply rest_cons in Hr. destruct Hr as [p [t [-> _]]]. cbn [read_while] in E. apply text_eqb_eq in Ep.
    unfold peekn in Ep. cbn [getn] in Ep. destruct (match t with Cons (R r0) _ t0 => _ | _ => _ end) in Ep. cbn [fst] in Ep. inversion Ep; subst r. cbn in E. destruct (read_while isalnum t). discriminate. }
  destruct (read_alpha c) as [nm c2] eqn:Ea. unfold read_alpha in Ea.
  assert (Hal : nm = [] -> isalpha r = false).
  { intros ->. destruct (rest_exists c2) as [t2 Ht2]. destruct (read_longest _ _ _ _ _ Ea Ht2) as [S1 [_ S2]]. cbn in S1. subst c2. rewrite (rest_unique _ _ _ Ht2 Hr) in S2. exact S2. }
  assert (nm = []).
  { destruct (negb (text_eqb nm (T "del")) && re_delete_lp nm) eqn:Ed; [|congruence]. exfalso. apply delete_iff in Ed.
    destruct (rest_exists c2) as [t2 Ht2]. destruct (read_longest _ _ _ _ _ Ea Ht2) as [S1 _].
    destruct Ed as [_ [d [Hd Hw]]]. assert (Hlen : (2 <= length nm)%nat).
    { cbn [In] in Hd. repeat (destruct Hd as [<-|Hd]; [destruct Hw as [-> | ->]; cbn; lia|]). contradiction. }
    destruct nm as [|x nm]; [cbn in Hlen; lia|]. destruct c as [|[|y] p t]; try contradiction. destruct nm as [|x2 nm]; [cbn in Hlen; lia|].
    cbn [length Nat.sub getn] in E. destruct (getn _ t). discriminate. }
  unfold sign_char. rewrite (Hal H). unfold is_special_cmd in Es. cbn in *. clear - Es. lia.
Qed.

Lemma find_command_none neovim st st' t : cache_ok neovim (cache st) -> find_command neovim st = (None, st') ->
  rest_of (cur st) t -> forall u x, ~ resolves neovim t u x.
Proof.
  intros Hc H Ht u x Hx. unfold find_command in H. destruct (read_cmd_name (cur st)) as [name c1] eqn:E.
  assert (Hw : exists w k, word_of t w k /\ ((first_match neovim k x /\ ~ user_word neovim k) \/ user_word neovim k)).
  { inversion Hx; subst; eauto 6. }
  destruct Hw as [w [k [Hw Hk]]].
  destruct name as [|r0 nm0]; cbn [is_nil] in H.
  { destruct (word_starts _ _ _ Hw) as [r [u' [-> Hs]]]. rewrite (read_cmd_none _ _ _ _ E Ht) in Hs. discriminate. }
  set (name := r0 :: nm0) in *. assert (Hne : name <> []) by discriminate.
  destruct (rest_exists c1) as [t1 Ht1].
  destruct (read_cmd_word _ _ _ _ E Hne Ht1) as [s [E1 [E2 _]]].
  assert (Et : t = s ++ t1) by (eapply rest_unique; [exact Ht|eapply rest_app; eauto]). rewrite <- Et in E2.
  destruct (word_of_fun _ _ _ _ _ Hw E2) as [_ ->]. clear Hw E2.
  destruct (assoc_text name (cache st)) as [r|] eqn:Ea.
  - inversion H; subst r. apply assoc_In in Ea. unfold cache_ok in Hc. rewrite Forall_forall in Hc.
    destruct (Hc _ Ea) as [_ K]. specialize (K eq_refl). cbn [fst] in K. destruct K as [K1 K2].
    destruct Hk as [[Hk _]|[Hk _]]; [exact (K2 _ Hk)|congruence].
  - pose proof (user_word_iff neovim name) as Hiff.
    destruct (match lookup_builtin neovim name with
            | None => starts_upper name
            | Some x => text_eqb (c_name x) (T "Print") && starts_upper name
            end) eqn:Eu.
    + destruct (read_alnum c1). discriminate.
    + apply (f_equal fst) in H. cbn [fst] in H. rename H into El. destruct Hk as [[Hk _]|Hk].
      * exact (lookup_none _ _ El _ Hk).
      * apply Hiff in Hk. discriminate.
Qed.

Lemma find_command_post neovim st o st' : cache_ok neovim (cache st) ->
  find_command neovim st = (o, st') ->
  ctx st' = ctx st /\ cache_ok neovim (cache st') /\ same_line (cur st) (cur st') /\
  forall x, o = Some x -> exists s, s <> [] /\ forallb (fun r => negb (iswhite r)) s = true /\
    named neovim s x /\ spells s (cur st) (cur st') /\
    forall t, rest_of (cur st') t -> resolves neovim (s ++ t) s x \/ cut_name neovim (s ++ t) s x.
Proof.
  intros Hc. unfold find_command. destruct (read_cmd_name (cur st)) as [name c1] eqn:E.
  destruct name as [|r0 nm0]; cbn [is_nil].
  { intros H; inversion H; subst; clear H. cbn [ctx cache cur with_cur]. repeat split; auto.
    apply read_cmd_name_spells in E. destruct E as [s [E _]]. exists s; auto. discriminate. }
  set (name := r0 :: nm0) in *. assert (Hne : name <> []) by discriminate.
  destruct (rest_exists c1) as [t1 Ht1].
  destruct (read_cmd_word _ _ _ _ E Hne Ht1) as [s [E1 [E2 [E3 [E4 E5]]]]].
  assert (Hwords : forall t, rest_of c1 t -> t = t1) by (intros; eapply rest_unique; eauto).
  assert (Htable : forall x, first_match neovim name x -> ~ user_word neovim name ->
    named neovim s x /\ forall t, rest_of c1 t -> resolves neovim (s ++ t) s x \/ cut_name neovim (s ++ t) s x).
  { intros x F1 F2. split.
    - destruct E3 as [E3|[E3 E3']]. rewrite <- E3. apply nm_table; auto.
      rewrite E3. rewrite E3' in F1. apply nm_s; auto.
    - intros t Ht. rewrite (Hwords _ Ht). left. eapply co_table; eauto. }
  assert (Huser : starts_upper name = true -> name = s /\ longest isalpha s (s ++ t1)).
  { intros Hu. eapply upper_word; eauto. }
  destruct (assoc_text name (cache st)) as [r|] eqn:Ea.
  { intros H; inversion H; subst o st'; clear H. cbn [ctx cache cur with_cur]. repeat split; auto.
    exists s; auto. intros x ->. exists s. apply assoc_In in Ea. unfold cache_ok in Hc.
    rewrite Forall_forall in Hc. destruct (Hc _ Ea) as [Hc' _]. clear Hc. rename Hc' into Hc. specialize (Hc x eq_refl). cbn [fst] in Hc.
    destruct Hc as [[K1 K2]|[K1 [-> K3]]].
    - destruct (Htable _ K1 K2). repeat split; auto.
    - destruct (Huser K1) as [Hs Hlong]. destruct Hlong as [u [U1 [U2 U3]]]. apply app_inv_head in U1. subst u.
      rewrite Hs in K3, K1, E2. specialize (K3 U2). split; [auto|split; [auto|split; [|split; [auto|]]]].
      + rewrite Hs. apply nm_user; auto.
      + intros t Ht. rewrite (Hwords _ Ht). rewrite Hs. destruct t1 as [|r1 t1].
        * left. eapply co_user; eauto. exists []. repeat split; auto. apply alnum_all; auto.
        * destruct (isdigit r1) eqn:Ed.
          -- right. split; [auto|split; [auto|split; [auto|]]]. exists r1, t1. auto.
          -- left. eapply co_user; eauto. exists (r1 :: t1). split; [auto|split; [apply alnum_all; auto|]].
             cbn in U3 |- *. unfold isalnum, isalpha in *. rewrite Ed. lia. }
  pose proof (user_word_iff neovim name) as Hiff.
  destruct (match lookup_builtin neovim name with
            | None => starts_upper name
            | Some x => text_eqb (c_name x) (T "Print") && starts_upper name
            end) eqn:Eu.
  - pose proof (proj1 Hiff eq_refl) as Hu. pose proof (proj1 Hu) as Hup. destruct (Huser Hup) as [Hs Hlong].
    unfold read_alnum. destruct (read_while isalnum c1) as [s2 c2] eqn:E6.
    destruct (rest_exists c2) as [t2 Ht2].
    destruct (read_longest _ _ _ _ _ E6 Ht2) as [A1 [A2 A3]].
    assert (Et1 : t1 = s2 ++ t2) by (eapply rest_unique; eauto; eapply rest_app; eauto).
    intros H; inversion H; subst o st'; clear H. cbn [ctx cache cur].
    assert (Hup2 : starts_upper (name ++ s2) = true) by exact Hup.
    assert (Hsp : spells (name ++ s2) (cur st) c2). { rewrite Hs. eapply spells_app; eauto. }
    destruct Hlong as [u [U1 [U2 U3]]]. apply app_inv_head in U1. subst u.
    assert (An : forallb isalnum (name ++ s2) = true).
    { rewrite forallb_app, Hs, (alnum_all _ U2). auto. }
    split; [auto|]. split; [|split; [eexists; eauto|]].
    + constructor; auto. cbn [fst snd]. split; [|discriminate]. intros x H; inversion H. right. split; [auto|split; [auto|]].
      intros Ha. destruct s2 as [|y s2]. rewrite app_nil_r. auto.
      change (forallb isalpha ((r0 :: nm0) ++ y :: s2) = true) in Ha. rewrite forallb_app in Ha. apply andb_true_iff in Ha. destruct Ha as [_ Ha].
      cbn [forallb] in Ha. apply andb_true_iff in Ha. destruct Ha as [Ha _]. rewrite Et1 in U3.
      cbn [app starts_with] in U3. congruence.
    + intros x H; inversion H; subst x. exists (name ++ s2). split; [destruct name; discriminate|].
      split; [apply alnum_not_white; auto|]. split; [apply nm_user; auto|]. split; [auto|].
      intros t Ht. left. rewrite (rest_unique _ _ _ Ht Ht2). apply (co_user _ _ name).
      * rewrite <- app_assoc, <- Et1. rewrite Hs in *. exact E2.
      * auto.
      * exists t2. auto.
  - assert (Hnu : ~ user_word neovim name) by (intros K; apply Hiff in K; discriminate).
    intros H; inversion H; subst o st'; clear H. cbn [ctx cache cur]. repeat split; auto.
    + constructor; auto. cbn [fst snd]. split. intros x Hx. left. split; auto. apply lookup_first; auto.
      intros El. rewrite El in Eu. split; [exact Eu|]. apply lookup_none; auto.
    + exists s; auto.
    + intros x Hx. exists s. apply lookup_first in Hx. destruct (Htable _ Hx Hnu). repeat split; auto.
Qed.

(** * Options *)

(** Groups of fields of ExArg. *)
Definition fixed (e : exarg) :=
  (ea_linepos e, ea_cmdpos e, ea_argpos e, ea_cmd e, ea_modifiers e, ea_range e).
Definition own (e : exarg) := (ea_forceit e, ea_append e, ea_usefilter e, ea_amount e).
Definition opts (e : exarg) :=
  (ea_force_bin e, ea_read_edit e, ea_force_ff e, ea_force_enc e, ea_bad_char e).

Lemma getn_rest s c t : rest_of c (s ++ t) ->
  exists c1, getn (length s) c = (s, c1) /\ spells s c c1 /\ rest_of c1 t.
Proof.
  revert c; induction s as [|r s IH]; intros c H; cbn [length getn].
  - exists c. split; [reflexivity|split; [reflexivity|exact H]].
  - pose proof (peek1_rest _ _ H) as Hp. cbn in Hp. apply peek1_some in Hp. destruct Hp as [p [u ->]].
    destruct (rest_tail _ _ _ _ H) as [s' [E Hs]]. cbn in E. inversion E; subst s'.
    destruct (IH _ Hs) as [c1 [E1 [E2 E3]]]. rewrite E1. exists c1. cbn [spells]. auto.
Qed.
Lemma read_rest f s c t : rest_of c (s ++ t) -> forallb f s = true -> starts_with f t = false ->
  exists c1, read_while f c = (s, c1) /\ spells s c c1 /\ rest_of c1 t.
Proof.
  intros H Hs Ht. destruct (read_while f c) as [s' c1] eqn:E. exists c1.
  destruct (rest_exists c1) as [t' Ht']. destruct (read_longest _ _ _ _ _ E Ht') as [R1 [R2 R3]].
  assert (E2 : s' ++ t' = s ++ t) by (eapply rest_unique; [eapply rest_app|]; eauto).
  destruct (longest_fun f _ _ _ _ E2 R2 Hs R3 Ht) as [-> ->]. auto.
Qed.

Lemma is_prefix_20 lit l : (length lit < 20)%nat -> is_prefix lit (firstn 20 l) = true ->
  exists t, l = lit ++ t /\ skipn (length lit) (firstn 20 l) = firstn (20 - length lit) t.
Proof.
  intros Hl H. apply is_prefix_app in H. destruct H as [r H].
  exists (r ++ skipn 20 l). split.
  - rewrite app_assoc, <- H. symmetry. apply firstn_skipn.
  - rewrite H. rewrite skipn_app, skipn_all, Nat.sub_diag, app_nil_l, skipn_O.
    assert (Hr : length (lit ++ r) = length (firstn 20 l)) by congruence.
    rewrite app_length, firstn_length in Hr.
    rewrite firstn_app. destruct (Nat.le_gt_cases 20 (length l)).
    + rewrite Nat.min_l in Hr by auto. rewrite firstn_all2 by lia.
      replace (20 - length lit - length r)%nat with 0%nat by lia. rewrite firstn_O, app_nil_r. reflexivity.
    + rewrite (skipn_all2 l) by lia. rewrite firstn_nil, app_nil_r, firstn_all2; auto. lia.
Qed.

Lemma re_lit_b_ok lit l : (length lit < 20)%nat -> re_lit_b lit (firstn 20 l) = true ->
  exists t, l = lit ++ t /\ starts_with iswordc t = false.
Proof.
  intros Hl H. unfold re_lit_b in H. apply andb_true_iff in H. destruct H as [H1 H2].
  destruct (is_prefix_20 _ _ Hl H1) as [t [E1 E2]]. exists t. split; auto. rewrite E2 in H2.
  unfold not_word_at, word_at in H2. destruct t as [|x t]; auto.
  destruct (20 - length lit)%nat eqn:En; [lia|]. cbn in H2. cbn. apply negb_true_iff in H2. auto.
Qed.
Lemma re_lit_S_ok lit l : (length lit < 20)%nat -> re_lit_S lit (firstn 20 l) = true ->
  exists r t, l = lit ++ r :: t /\ re_space r = false.
Proof.
  intros Hl H. unfold re_lit_S in H. apply andb_true_iff in H. destruct H as [H1 H2].
  destruct (is_prefix_20 _ _ Hl H1) as [t [E1 E2]]. unfold text in *. rewrite E2 in H2.
  destruct t as [|x t]. rewrite firstn_nil in H2. discriminate.
  destruct (20 - length lit)%nat eqn:En; [lia|]. cbn in H2. exists x, t. split; auto.
  apply negb_true_iff in H2. auto.
Qed.
Lemma not_word_not_alpha t : starts_with iswordc t = false -> starts_with isalpha t = false.
Proof.
  destruct t as [|x t]; auto. cbn. unfold iswordc, isalnum, isalpha, isdigit, between, isupper, islower. lia.
Qed.
Lemma re_lit_ff_ok lit l : (length lit < 16)%nat -> re_lit_ff lit (firstn 20 l) = true ->
  exists v t, l = lit ++ v ++ t /\ In v [T "dos"; T "unix"; T "mac"] /\ word_ends t.
Proof.
  intros Hl H. unfold re_lit_ff in H. rewrite !orb_true_iff in H.
  destruct H as [[H|H]|H]; apply re_lit_b_ok in H;
    try (rewrite app_length; cbn [length]; lia); destruct H as [t [H1 H2]];
    rewrite <- app_assoc in H1; do 2 eexists; (split; [exact H1|split; [cbn; auto|auto]]).
Qed.

Lemma last_app {A} (l m : list A) d : last (l ++ m) d = last m (last l d).
Proof.
  revert d; induction l as [|a l IH]; intros d; cbn [app]; auto.
  destruct l as [|b l]; cbn [app] in *.
  - destruct m; [reflexivity|]. cbn [last]. destruct m; [reflexivity|]. change (last (a :: a0 :: a1 :: m) d) with (last (a1 :: m) d).
    clear. revert a1; induction m as [|y m IHm]; intros a1; [reflexivity|]. cbn [last] in *. apply IHm.
  - change (last (a :: b :: l ++ m) d) with (last (b :: l ++ m) d). rewrite IH. reflexivity.
Qed.

Lemma p_match_rest p : forall k c d t, wf d -> (forall j, p_ (k + j) c = p_ j d) -> rest_of d (p ++ t) -> p_match k p c = Ok true.
Proof.
  induction p as [|r p IH]; intros k c d t Hw Hp Hr; cbn [p_match]; auto.
  pose proof (Hp O) as H0. rewrite Nat.add_0_r, p_0 in H0. rewrite H0. cbn [bind].
  pose proof (peek1_rest _ _ Hr) as Hk. apply peek1_some in Hk. destruct Hk as [q [u ->]].
  cbn [peek ch_of_cell ch_is]. rewrite N.eqb_refl. destruct (rest_tail _ _ _ _ Hr) as [s' [E Hs]]. inversion E; subst s'.
  apply (IH (S k) c u t); auto. eapply wf_tail; eauto.
  intros j. replace (S k + j)%nat with (k + S j)%nat by lia. rewrite Hp, p_S; auto.
Qed.
Lemma no_match_begins p c l : p_match 0 p c = Ok false -> wf c -> rest_of c l -> ~ begins p l.
Proof. intros H Hw Hl [t ->]. rewrite (p_match_rest p 0 c c t) in H; auto. discriminate. Qed.

Lemma re_bad_ok l t : l = T "++bad=" ++ t -> re_bad (firstn 20 l) = true ->
  (exists v t', In v [T "keep"; T "drop"] /\ t = v ++ t' /\ word_ends t') \/
  (exists r t', t = r :: t' /\ r <> 10 /\ (iswordc r = true <-> word_ends t')).
Proof.
  intros -> H. unfold re_bad in H. rewrite !orb_true_iff in H. destruct H as [[H|H]|H].
  - apply re_lit_b_ok in H; [|cbn; lia]. destruct H as [u [H1 H2]]. left. exists (T "keep"), u.
    split; [cbn; auto|]. split; [|auto]. apply (app_inv_head (T "++bad=")). rewrite H1. reflexivity.
  - apply re_lit_b_ok in H; [|cbn; lia]. destruct H as [u [H1 H2]]. left. exists (T "drop"), u.
    split; [cbn; auto|]. split; [|auto]. apply (app_inv_head (T "++bad=")). rewrite H1. reflexivity.
  - right. destruct t as [|r t]; [discriminate H|]. exists r, t. split; [auto|].
    cbn [app firstn skipn is_prefix] in H.
    rewrite !andb_true_iff, negb_true_iff, N.eqb_neq in H. destruct H as [_ [H1 H2]]. split; [auto|].
    unfold word_ends. destruct t as [|y t]; cbn in H2 |- *; destruct (iswordc r); try discriminate.
    + tauto.
    + destruct (iswordc y); [discriminate|]. tauto.
    + destruct (iswordc y); [|discriminate]. split; discriminate.
Qed.
Lemma bad_char_prefix r t : (iswordc r = true <-> word_ends t) ->
  is_prefix (T "++bad=keep") (firstn 20 (T "++bad=" ++ r :: t)) || is_prefix (T "++bad=drop") (firstn 20 (T "++bad=" ++ r :: t)) = false.
Proof.
  intros H. apply orb_false_iff. split.
  - destruct (is_prefix _ _) eqn:E; auto. exfalso. apply is_prefix_20 in E; [|cbn; lia]. destruct E as [u [E _]].
    cbn in E. inversion E; subst. destruct H as [H _]. specialize (H eq_refl). discriminate H.
  - destruct (is_prefix _ _) eqn:E; auto. exfalso. apply is_prefix_20 in E; [|cbn; lia]. destruct E as [u [E _]].
    cbn in E. inversion E; subst. destruct H as [H _]. specialize (H eq_refl). discriminate H.
Qed.

(** The options [os] change the fields of [e] to those of [e']. *)
Definition opts_set (os : list argoption) (e e' : exarg) : Prop :=
  ea_force_bin e' = last_option bin_of os (ea_force_bin e) /\
  ea_read_edit e' = last_option edit_of os (ea_read_edit e) /\
  ea_force_ff e' = last_option format_of os (ea_force_ff e) /\
  ea_force_enc e' = last_option encoding_of os (ea_force_enc e) /\
  ea_bad_char e' = last_option bad_of os (ea_bad_char e).

Lemma opts_set_cons o os e e1 e' : opts_set [o] e e1 -> opts_set os e1 e' -> opts_set (o :: os) e e'.
Proof.
  unfold opts_set, last_option. cbn [flat_map]. rewrite !app_nil_r, !last_app.
  intros [-> [-> [-> [-> ->]]]]. auto.
Qed.

Lemma argopt_ok : forall n e c e' c' rest, wf c -> argopt_loop n e c = Ok (e', c') -> rest_of c' rest ->
  exists os t1, spells t1 c c' /\ options_text rest t1 os /\ opts_set os e e' /\
    fixed e' = fixed e /\ own e' = own e /\ ea_do_ecmd_cmd e' = ea_do_ecmd_cmd e.
Proof.
  induction n as [|n IH]; intros e c e' c' rest Hw HH Hrest; revert HH; cbn [argopt_loop]; [discriminate|].
  destruct (p_match_spells (T "++") 0 c c) as [[Hm [d' Hd]]|Hm]; auto.
  2: { rewrite Hm. cbn [bind negb]. intros H; inversion H; subst. exists [], []. repeat split; try constructor.
       eapply no_match_begins; eauto. }
  rewrite Hm. cbn [bind negb]. clear Hm Hd d'.
  destruct (rest_exists c) as [l Hl]. rewrite (peekn_rest _ _ _ Hl).
  assert (Hgo : forall o s t e1 c1, l = s ++ t -> spells s c c1 -> rest_of c1 t -> option_text t s o ->
     opts_set [o] e e1 -> fixed e1 = fixed e -> own e1 = own e -> ea_do_ecmd_cmd e1 = ea_do_ecmd_cmd e ->
     (let* '(e2, c2) := Ok (e1, c1) in argopt_loop n e2 (skip_white c2)) = Ok (e', c') ->
     exists os t1, spells t1 c c' /\ options_text rest t1 os /\ opts_set os e e' /\
       fixed e' = fixed e /\ own e' = own e /\ ea_do_ecmd_cmd e' = ea_do_ecmd_cmd e).
  { intros o s t e1 c1 El Sp Rt Ho Hset F1 F2 F3. cbn [bind]. intros H.
    assert (Hw1 : wf (skip_white c1)).
    { eapply wf_sfx; [|exact Hw]. eapply sfx_trans; [apply skip_while_sfx|]. eapply spells_sfx; eauto. }
    destruct (IH _ _ _ _ rest Hw1 H Hrest) as [os [t1 [K1 [K2 [K3 [K4 [K5 K6]]]]]]].
    destruct (white_max _ _ (rest_app _ _ _ _ K1 Hrest)) as [w [W1 [W2 W3]]].
    exists (o :: os), (s ++ w ++ t1). split.
    { eapply spells_app; eauto. eapply spells_app; eauto. }
    split. { constructor; auto. rewrite <- (rest_unique _ _ _ Rt (rest_app _ _ _ _ W1 (rest_app _ _ _ _ K1 Hrest))). auto. }
    split. { eapply opts_set_cons; eauto. }
    split; [congruence|split; congruence]. }
  assert (Hb : forall lit t, l = lit ++ t -> exists c1, snd (getn (length lit) c) = c1 /\ spells lit c c1 /\ rest_of c1 t).
  { intros lit t E. rewrite E in Hl. destruct (getn_rest _ _ _ Hl) as [c1 [E1 [E2 E3]]].
    exists c1. rewrite E1. auto. }
  destruct (re_lit_b (T "++bin") (firstn 20 l)) eqn:E1.
  { apply re_lit_b_ok in E1; [|cbn; lia]. destruct E1 as [t [E Hwe]].
    destruct (Hb _ _ E) as [c1 [Ec [Sc Rc]]]. cbn [length] in Ec. rewrite Ec.
    eapply Hgo; eauto; try reflexivity; try (constructor; exact Hwe); repeat split. }
  clear E1. destruct (re_lit_b (T "++nobin") (firstn 20 l)) eqn:E1.
  { apply re_lit_b_ok in E1; [|cbn; lia]. destruct E1 as [t [E Hwe]].
    destruct (Hb _ _ E) as [c1 [Ec [Sc Rc]]]. cbn [length] in Ec. rewrite Ec.
    eapply Hgo; eauto; try reflexivity; try (constructor; exact Hwe); repeat split. }
  clear E1. destruct (re_lit_b (T "++edit") (firstn 20 l)) eqn:E1.
  { apply re_lit_b_ok in E1; [|cbn; lia]. destruct E1 as [t [E Hwe]].
    destruct (Hb _ _ E) as [c1 [Ec [Sc Rc]]]. cbn [length] in Ec. rewrite Ec.
    eapply Hgo; eauto; try reflexivity; try (constructor; exact Hwe); repeat split. }
  clear E1. destruct (re_lit_ff (T "++ff=") (firstn 20 l)) eqn:E1.
  { apply re_lit_ff_ok in E1; [|cbn; lia]. destruct E1 as [v [t [E [Hv Ht]]]].
    destruct (Hb _ _ E) as [c1 [Ec [Sc Rc]]]. cbn [length] in Ec. rewrite Ec.
    destruct (read_rest isalpha v c1 t Rc) as [c2 [R1 [R2 R3]]]; [|apply not_word_not_alpha; auto|].
    { cbn in Hv. repeat (destruct Hv as [<-|Hv]; [reflexivity|]). contradiction. }
    unfold read_alpha. rewrite R1.
    apply (Hgo (OFormat v) (T "++ff=" ++ v) t); auto; try reflexivity.
    - eapply spells_app; eauto.
    - constructor; cbn; auto.
    - repeat split. }
  clear E1. destruct (re_lit_ff (T "++fileformat=") (firstn 20 l)) eqn:E1.
  { apply re_lit_ff_ok in E1; [|cbn; lia]. destruct E1 as [v [t [E [Hv Ht]]]].
    destruct (Hb _ _ E) as [c1 [Ec [Sc Rc]]]. cbn [length] in Ec. rewrite Ec.
    destruct (read_rest isalpha v c1 t Rc) as [c2 [R1 [R2 R3]]]; [|apply not_word_not_alpha; auto|].
    { cbn in Hv. repeat (destruct Hv as [<-|Hv]; [reflexivity|]). contradiction. }
    unfold read_alpha. rewrite R1.
    apply (Hgo (OFormat v) (T "++fileformat=" ++ v) t); auto; try reflexivity.
    - eapply spells_app; eauto.
    - constructor; cbn; auto.
    - repeat split. }
  clear E1.
  assert (Henc : forall lit, In lit [T "++enc="; T "++encoding="] -> re_lit_S lit (firstn 20 l) = true ->
    (let* '(e2, c2) := (let '(v, c0) := read_nonwhite (snd (getn (length lit) c)) in Ok (ea_set_force_enc v e, c0)) in
     argopt_loop n e2 (skip_white c2)) = Ok (e', c') ->
    exists os t1, spells t1 c c' /\ options_text rest t1 os /\ opts_set os e e' /\
       fixed e' = fixed e /\ own e' = own e /\ ea_do_ecmd_cmd e' = ea_do_ecmd_cmd e).
  { intros lit Hlit E1. apply re_lit_S_ok in E1.
    2: { cbn in Hlit. repeat (destruct Hlit as [<-|Hlit]; [cbn; lia|]). contradiction. }
    destruct E1 as [r [t [E Hr]]]. destruct (Hb _ _ E) as [c1 [Ec [Sc Rc]]]. rewrite Ec.
    unfold read_nonwhite. destruct (read_while (fun r => negb (iswhite r)) c1) as [v c2] eqn:Ev.
    destruct (rest_exists c2) as [t2 Ht2]. destruct (read_longest _ _ _ _ _ Ev Ht2) as [R1 [R2 R3]].
    assert (Et : r :: t = v ++ t2) by (eapply rest_unique; eauto; eapply rest_app; eauto).
    apply (Hgo (OEncoding v) (lit ++ v) t2); auto; try reflexivity.
    - rewrite <- app_assoc, <- Et. auto.
    - eapply spells_app; eauto.
    - assert (Hv : exists v', v = r :: v').
      { destruct v as [|y v]; [|inversion Et; eauto]. exfalso. cbn in Et. subst t2. cbn in R3.
        unfold re_space, iswhite in *. change (C " ") with 32 in *. lia. }
      destruct Hv as [v' ->]. constructor; auto.
      + unfold re_space in Hr. cbn in Hr |- *. lia.
      + rewrite forallb_forall in R2. intros x Hx. specialize (R2 x (or_intror Hx)). cbn beta in R2. unfold iswhite in R2. change (C " ") with 32 in *. lia.
      + destruct t2 as [|y t2]; [auto|]. left. cbn [starts_with] in *. apply negb_false_iff; auto.
    - repeat split. }
  destruct (re_lit_S (T "++enc=") (firstn 20 l)) eqn:E1. { apply (Henc (T "++enc=")); cbn; auto. }
  clear E1. destruct (re_lit_S (T "++encoding=") (firstn 20 l)) eqn:E1.
  { apply (Henc (T "++encoding=")); cbn; auto. }
  clear E1 Henc. destruct (re_bad (firstn 20 l)) eqn:E1; [|discriminate].
  assert (Hp : is_prefix (T "++bad=") (firstn 20 l) = true).
  { unfold re_bad in E1. rewrite !orb_true_iff in E1.
    destruct E1 as [[E1|E1]|E1]; [| |apply andb_true_iff in E1; apply E1];
    unfold re_lit_b in E1; apply andb_true_iff in E1; destruct E1 as [E1 _];
    apply is_prefix_app in E1; destruct E1 as [u E1]; rewrite E1; reflexivity. }
  apply is_prefix_20 in Hp; [|cbn; lia]. destruct Hp as [t [E E2]].
  destruct (Hb _ _ E) as [c1 [Ec [Sc Rc]]]. cbn [length] in Ec. rewrite Ec.
  assert (Hbad : forall v t', t = v ++ t' -> option_text t' (T "++bad=" ++ v) (OBad v) ->
    (let* '(e2, c2) := (let '(v0, c'') := getn (length v) c1 in Ok (ea_set_bad_char v0 e, c'')) in
     argopt_loop n e2 (skip_white c2)) = Ok (e', c') ->
    exists os t1, spells t1 c c' /\ options_text rest t1 os /\ opts_set os e e' /\
       fixed e' = fixed e /\ own e' = own e /\ ea_do_ecmd_cmd e' = ea_do_ecmd_cmd e).
  { intros v t' Et Hv. rewrite Et in Rc. destruct (getn_rest _ _ _ Rc) as [c2 [G1 [G2 G3]]]. rewrite G1.
    apply (Hgo (OBad v) (T "++bad=" ++ v) t'); auto; try reflexivity.
    - rewrite <- app_assoc, <- Et. auto.
    - eapply spells_app; eauto.
    - repeat split. }
  apply (re_bad_ok l t E) in E1. destruct E1 as [[v [t' [Hv [Et Hw2]]]]|[r [t' [Et [Hn Hx]]]]].
  - assert (Ep : is_prefix (T "++bad=keep") (firstn 20 l) || is_prefix (T "++bad=drop") (firstn 20 l) = true).
    { rewrite E, Et. cbn in Hv. destruct Hv as [<-|[<-|[]]]; reflexivity. }
    rewrite Ep. assert (El : length v = 4%nat) by (cbn in Hv; destruct Hv as [<-|[<-|[]]]; reflexivity).
    rewrite <- El. apply (Hbad v t'); auto. apply ot_bad; auto.
  - assert (Ep : is_prefix (T "++bad=keep") (firstn 20 l) || is_prefix (T "++bad=drop") (firstn 20 l) = false).
    { rewrite E, Et. apply bad_char_prefix; auto. }
    rewrite Ep. apply (Hbad [r] t'); auto. apply (ot_bad_char _ r); auto.
Qed.

Lemma own_ok name cp force e c e1 c1 e2 c2 e3 c3 rest : wf c ->
  own e = (force, 0, false, 0) -> write_args name cp e c = Ok (e1, c1) -> read_args name e1 c1 = (e2, c2) ->
  shift_args name e2 c2 = (e3, c3) -> rest_of c3 rest ->
  exists t2, spells t2 c c3 /\
    own_text name force rest t2 (ea_forceit e3) (ea_append e3) (ea_usefilter e3) (ea_amount e3) /\
    fixed e3 = fixed e /\ opts e3 = opts e /\ ea_do_ecmd_cmd e3 = ea_do_ecmd_cmd e.
Proof.
  intros Hw Ho W R S Hr. unfold own in Ho. injection Ho as H1 H2 H3 H4.
  destruct (rest_exists c) as [l Hl].
  unfold write_args in W. unfold read_args in R. unfold shift_args in S.
  destruct (text_eqb name (T "write") || text_eqb name (T "update")) eqn:Ewu.
  - assert (Hn : In name [T "write"; T "update"]).
    { rewrite orb_true_iff, !text_eqb_eq in Ewu. cbn. destruct Ewu; auto. }
    assert (Hnr : text_eqb name (T "read") = false).
    { cbn in Hn. destruct Hn as [<-|[<-|[]]]; reflexivity. }
    rewrite Hnr in R. inversion R; subst e2 c2; clear R.
    assert (Hns : e3 = e1 /\ c3 = c1).
    { cbn in Hn. destruct Hn as [<-|[<-|[]]]; inversion S; auto. }
    destruct Hns as [-> ->]. clear S. rewrite p_0 in W. cbn [bind] in W.
    destruct (ch_is (peek c) (C ">")) eqn:E.
    + apply ch_is_peek in E. destruct E as [p [t ->]].
      rewrite p_S, p_0 in W by auto. cbn [bind] in W.
      destruct (ch_is (peek t) (C ">")) eqn:E2; cbn [negb] in W; [|discriminate].
      apply ch_is_peek in E2. destruct E2 as [p2 [u ->]]. cbn [seek_cur bind] in W. inversion W; subst e1 c1; clear W.
      destruct (white_max _ _ Hr) as [w [W1 [W2 W3]]].
      exists (T ">>" ++ w). split; [cbn; auto|]. cbn [ea_forceit ea_append ea_usefilter ea_amount ea_set_append].
      rewrite H1, H3, H4. repeat split. apply ow_append; auto.
    + assert (Ngt : ~ begins (T ">") l).
      { intros [u Hu]. rewrite (peek1_rest _ _ Hl) in *. subst l.
        pose proof (peek1_rest _ _ Hl) as Hp. cbn in Hp. apply peek1_some in Hp. destruct Hp as [p [t ->]].
        discriminate E. }
      destruct (o_is (peek1 c) (C "!") && text_eqb name (T "write")) eqn:E2.
      * apply andb_true_iff in E2. destruct E2 as [E2 E3]. apply text_eqb_eq in E3.
        apply o_is_peek1 in E2. destruct E2 as [p [t ->]]. cbn [getn snd] in W. inversion W; subst e1 c1; clear W.
        exists (T "!"). split; [cbn; auto|]. cbn [ea_forceit ea_append ea_usefilter ea_amount ea_set_filter].
        rewrite H1, H2, H4. repeat split. apply ow_write; auto.
      * inversion W; subst e1 c1; clear W. rewrite (rest_unique _ _ _ Hr Hl).
        exists []. split; [reflexivity|]. rewrite H1, H2, H3, H4. repeat split. apply ow_none.
        -- intros K. cbn in Hn, K. destruct Hn as [<-|[<-|[]]]; destruct K as [K|[K|[]]]; discriminate.
        -- auto.
        -- intros ->. rewrite (o_is_rest _ _ _ Hl) in E2. apply not_begins. apply andb_false_iff in E2.
           destruct E2 as [E2|E2]; [exact E2|discriminate].
        -- intros ->. discriminate Hnr.
  - inversion W; subst e1 c1; clear W.
    assert (Hnw : ~ In name [T "write"; T "update"]).
    { apply orb_false_iff in Ewu. destruct Ewu as [X Y]. intros K. cbn in K.
      destruct K as [<-|[<-|[]]]; discriminate. }
    destruct (text_eqb name (T "read")) eqn:Er.
    + apply text_eqb_eq in Er. subst name. inversion S; subst e3 c3; clear S.
      rewrite H1 in R. destruct force eqn:Ef.
      * inversion R; subst e2 c2. exists []. split; [reflexivity|].
        cbn [ea_forceit ea_append ea_usefilter ea_amount ea_set_filter]. rewrite H2, H4. repeat split.
        apply ow_read_bang; auto.
      * destruct (o_is (peek1 c) (C "!")) eqn:E2.
        -- apply o_is_peek1 in E2. destruct E2 as [p [t ->]]. cbn [getn snd] in R. inversion R; subst e2 c2; clear R.
           exists (T "!"). split; [cbn; auto|].
           cbn [ea_forceit ea_append ea_usefilter ea_amount ea_set_filter]. rewrite H2, H4. repeat split.
           apply ow_read; auto.
        -- inversion R; subst e2 c2; clear R. rewrite (rest_unique _ _ _ Hr Hl). exists []. split; [reflexivity|].
           rewrite H1, H2, H3, H4. repeat split. apply ow_none; try (intros K; cbn in K; intuition discriminate).
           intros _. split; auto. rewrite (o_is_rest _ _ _ Hl) in E2. apply not_begins; auto.
    + inversion R; subst e2 c2; clear R.
      assert (Hnone : ~ In name [T "<"; T ">"] -> (e3, c3) = (e, c) ->
        exists t2 : text, spells t2 c c3 /\
         own_text name force rest t2 (ea_forceit e3) (ea_append e3) (ea_usefilter e3) (ea_amount e3) /\
         fixed e3 = fixed e /\ opts e3 = opts e /\ ea_do_ecmd_cmd e3 = ea_do_ecmd_cmd e).
      { intros K K2. inversion K2; subst e3 c3. exists []. split; [reflexivity|]. rewrite H1, H2, H3, H4. repeat split.
        apply ow_none; [exact K|intros X; exfalso; exact (Hnw X)| |].
        intros ->; exfalso; apply Hnw; cbn; auto. intros ->; discriminate Er. }
      destruct name as [|r [|r' name]].
      * apply Hnone; [|auto]. intros [K|[K|[]]]; discriminate.
      * destruct ((r =? C "<") || (r =? C ">")) eqn:Es.
        -- destruct (read_while (fun x => x =? r) c) as [s c4] eqn:E4.
           assert (S1 : e3 = ea_set_amount (1 + N.of_nat (length s)) e) by congruence.
           assert (S2 : c3 = skip_white c4) by congruence. subst e3 c3; clear S.
           destruct (skip_longest iswhite c4 rest Hr) as [w [W1 [W2 W3]]]. fold (skip_white c4) in W1.
           destruct (read_longest _ _ _ _ _ E4 (rest_app _ _ _ _ W1 Hr)) as [R1 [R2 R3]].
           exists (s ++ w). split; [eapply spells_app; eauto|].
           cbn [ea_forceit ea_append ea_usefilter ea_amount ea_set_amount]. rewrite H1, H2, H3. split; [|repeat split].
           assert (Es2 : s = repeat r (length s)).
           { clear -R2. induction s as [|x s IH]; [reflexivity|]. cbn [forallb] in R2. apply andb_true_iff in R2.
             destruct R2 as [R2 R3]. apply N.eqb_eq in R2. cbn [length repeat]. subst x. f_equal. auto. }
           rewrite N.add_comm. rewrite Es2 at 1. apply ow_shift; auto.
           ++ apply orb_true_iff in Es. cbn. destruct Es as [Es|Es]; apply N.eqb_eq in Es; subst; auto.
           ++ apply all_white_iff; auto.
        -- apply Hnone; [|auto]. intros [K|[K|[]]]; inversion K; subst r; discriminate Es.
      * apply Hnone; [|auto]. intros [K|[K|[]]]; discriminate.
Qed.

Lemma read_cmdarg_ok : forall n c v c' t, (clen c <= n)%nat -> wf c -> read_cmdarg c = (v, c') -> rest_of c' t ->
  exists s, spells s c c' /\ cmdarg s v t.
Proof.
  induction n as [|n IH]; intros c v c' t Hn Hw.
  - destruct c; cbn [clen] in Hn; [|lia]. cbn. intros H Ht; inversion H; subst. exists []. split; [reflexivity|].
    apply ca_end. right. apply peek1_rest in Ht. destruct t; [auto|discriminate].
  - destruct c as [p|[|r] p u]; cbn [read_cmdarg].
    + intros H Ht; inversion H; subst. exists []. split; [reflexivity|].
      apply ca_end. right. apply peek1_rest in Ht. destruct t; [auto|discriminate].
    + intros H Ht; inversion H; subst. exists []. split; [reflexivity|].
      apply ca_end. right. apply peek1_rest in Ht. destruct t; [auto|discriminate].
    + cbn [clen] in Hn. destruct (iswhite r) eqn:Ew.
      { intros H Ht; inversion H; subst. exists []. split; [reflexivity|].
        apply ca_end. left. rewrite <- (o_in_rest _ _ _ Ht). exact Ew. }
      destruct (r =? 92) eqn:Eb.
      * apply N.eqb_eq in Eb. subst r. destruct u as [p1|[|r2] p1 u2].
        -- intros H Ht; inversion H; subst. exists [92]. split; [cbn; auto|].
           apply peek1_rest in Ht. destruct t; [constructor|discriminate].
        -- intros H Ht; inversion H; subst. exists [92]. split; [cbn; auto|].
           apply peek1_rest in Ht. destruct t; [constructor|discriminate].
        -- destruct (read_cmdarg u2) as [s1 c1] eqn:E. intros H Ht; inversion H; subst. cbn [clen] in Hn.
           destruct (IH u2 s1 c' t) as [s2 [H1 H2]]; auto. lia. eapply wf_tail, wf_tail; eauto.
           exists (92 :: r2 :: s2). split. cbn; auto. constructor; auto.
      * destruct (read_cmdarg u) as [s1 c1] eqn:E. intros H Ht; inversion H; subst.
        destruct (IH u s1 c' t) as [s2 [H1 H2]]; auto. lia. eapply wf_tail; eauto.
        exists (r :: s2). split. cbn; auto. constructor; auto. apply N.eqb_neq; auto.
Qed.

Lemma ecmd_ok (allowed : bool) e c e' c' rest : wf c -> ea_do_ecmd_cmd e = [] ->
  (if allowed then parse_argcmd e c else (e, c)) = (e', c') -> rest_of c' rest ->
  exists t3, spells t3 c c' /\ ecmd_text allowed rest t3 (ea_do_ecmd_cmd e') /\
    fixed e' = fixed e /\ own e' = own e /\ opts e' = opts e.
Proof.
  intros Hw He H Hr. destruct allowed.
  2: { inversion H; subst. exists []. split; [reflexivity|]. rewrite He. repeat split. constructor. discriminate. }
  destruct (rest_exists c) as [l Hl]. unfold parse_argcmd in H. destruct (o_is (peek1 c) (C "+")) eqn:E.
  - apply o_is_peek1 in E. destruct E as [p [t ->]]. cbn [getn snd] in H.
    destruct (rest_tail _ _ _ _ Hl) as [l' [_ Hl']].
    destruct (o_is (peek1 t) (C " ")) eqn:E2.
    + inversion H; subst. exists (T "+"). split; [cbn; auto|].
      cbn [ea_do_ecmd_cmd ea_set_ecmd]. repeat split.
      apply ec_last; auto. rewrite (o_is_rest _ _ _ Hr) in E2. apply starts_is_begins in E2. exact E2.
    + destruct (read_cmdarg t) as [v c2] eqn:E3. inversion H; subst.
      destruct (read_cmdarg_ok (clen t) _ _ _ _ (le_n _) (wf_tail _ _ _ Hw) E3 Hr) as [s [S1 S2]].
      exists (C "+" :: s). split; [cbn; auto|]. cbn [ea_do_ecmd_cmd ea_set_ecmd]. repeat split.
      apply ecm_cmd; auto. rewrite (o_is_rest _ _ _ (rest_app _ _ _ _ S1 Hr)) in E2. apply not_begins; auto.
  - inversion H; subst. exists []. split; [reflexivity|]. rewrite He. repeat split. constructor.
    intros _. rewrite (o_is_rest _ _ _ Hr) in E. apply not_begins; auto.
Qed.
