(** The command parser, part 1: modifiers, ranges, arguments, texts. *)
From Coq Require Import Lia ZifyBool ZifyNat ZifyN.
From Verif Require Import Base CharClass Reader Vnode Tokenizer ExprParser CmdTable CmdParser
  Cursor Grammar TokSafe ExprSafe Script Fault Safe.

(** A decimal count of the text [B] that does not fit in 32 bits. *)
Definition overflow (B : cursor) (k : panic_kind) : Prop :=
  exists s a b, k = PStr2nr s /\ sfx a B /\ spells s a b /\ some_of isdigit s /\ 2147483647 < decimal s.

(** Like [safe], with the messages of whole commands, and the panic of an overflowing
    count is allowed. *)
Definition csafe {A} (neovim : bool) (B : cursor) (P : A -> Prop) (o : outcome A) : Prop :=
  match o with
  | Ok a => P a
  | PErr e => exists s, sfx s B /\ e = Err_ (e_msg e) (getpos s) /\ report neovim B s (e_msg e)
  | Panic k => overflow B k
  | OutOfFuel => False
  end.

Lemma csafe_bind {A A'} nv B (P : A -> Prop) (Q : A' -> Prop) m k :
  csafe nv B P m -> (forall a, P a -> csafe nv B Q (k a)) -> csafe nv B Q (bind m k).
Proof. destruct m; cbn; auto. Qed.
Lemma csafe_imp {A} nv B (P Q : A -> Prop) o :
  (forall a, P a -> Q a) -> csafe nv B P o -> csafe nv B Q o.
Proof. destruct o; cbn; auto. Qed.
Lemma csafe_of_safe {A} nv B (P : A -> Prop) o : safe B P o -> csafe nv B P o.
Proof.
  destruct o; cbn; auto; try contradiction. intros [s [H1 [H2 H3]]]. exists s. split; [auto|split; [auto|]]. apply rp_cmd; auto.
Qed.
Lemma csafe_report {A} nv B (P : A -> Prop) msg s : sfx s B -> report nv B s msg -> csafe nv B P (raise msg (getpos s)).
Proof. intros H K. exists s. auto. Qed.
Lemma csafe_raise {A} nv B (P : A -> Prop) msg s : sfx s B -> cmd_fault B s msg -> csafe nv B P (raise msg (getpos s)).
Proof. intros H K. apply csafe_report; auto. apply rp_cmd; auto. Qed.

Ltac csafe_b :=
  match goal with
  | |- csafe _ _ _ (bind (Ok _) _) => cbn [bind]
  | |- csafe _ _ _ (bind _ _) => eapply csafe_bind
  end.

(** * Cursors *)

Lemma same_line_refl c : same_line c c.
Proof. exists []. reflexivity. Qed.
Lemma same_line_trans a b c : same_line a b -> same_line b c -> same_line a c.
Proof. intros [s H] [t K]. exists (s ++ t). eapply spells_app; eauto. Qed.
Lemma same_line_sfx a b : same_line a b -> sfx b a.
Proof. intros [s H]. eapply spells_sfx; eauto. Qed.
Lemma spells_line s a b : spells s a b -> same_line a b.
Proof. exists s; auto. Qed.
Lemma skip_line f c : same_line c (skip_while f c).
Proof. destruct (skip_while_spells f c) as [s [H _]]. exists s; auto. Qed.
Lemma getn_line n c : same_line c (snd (getn n c)).
Proof. destruct (getn n c) as [s c'] eqn:E. exists s. eapply getn_spells; eauto. Qed.
Lemma read_line f c : same_line c (snd (read_while f c)).
Proof. destruct (read_while f c) as [s c'] eqn:E. exists s. apply read_while_spells in E; apply E. Qed.
Lemma getall_line c : same_line c (snd (getn_all c)).
Proof. destruct (getn_all c) as [s c'] eqn:E. exists s. apply getn_all_spells in E; apply E. Qed.
Lemma same_line_cons r p t c : same_line t c -> same_line (Cons (R r) p t) c.
Proof. intros [s H]. exists (r :: s). cbn. auto. Qed.

Lemma gap_sfx a b : gap a b -> sfx b a.
Proof.
  induction 1; try (constructor; auto; fail); eapply sfx_trans; eauto; eapply spells_sfx; eauto.
Qed.
Lemma gap_trans a b c : gap a b -> gap b c -> gap a c.
Proof.
  induction 1; intros; auto.
  - constructor; auto.
  - constructor; auto.
  - eapply gap_bang; eauto.
  - eapply gap_hide; eauto.
  - eapply gap_mark; eauto.
Qed.
Lemma gap_spells f s a b : (forall r, f r = true -> iswhite r = true \/ r = C ":" \/ r = C "|") ->
  forallb f s = true -> spells s a b -> gap a b.
Proof.
  intros Hf. revert a; induction s as [|r s IH]; cbn [forallb spells]; intros a H K.
  - subst. constructor.
  - destruct a as [|[|r'] p t]; try contradiction. destruct K as [-> K].
    apply andb_true_iff in H. destruct H. constructor; auto.
Qed.
Lemma gap_white c : gap c (skip_white c).
Proof.
  destruct (skip_while_spells iswhite c) as [s [H [H1 _]]].
  eapply gap_spells; eauto.
Qed.
Lemma gap_white_colon c : gap c (skip_white_and_colon c).
Proof.
  destruct (skip_while_spells (fun r => iswhite r || (r =? C ":")) c) as [s [H [H1 _]]].
  eapply gap_spells; [|exact H1|exact H]. cbn. intros r Hr. apply orb_true_iff in Hr.
  destruct Hr as [Hr|Hr]; auto. apply N.eqb_eq in Hr. auto.
Qed.
Lemma gap_blank c d : blank c d -> gap c d.
Proof. intros [s [H [H1 _]]]. eapply gap_spells; eauto. Qed.

Lemma at_end_eol c : wf c -> at_end c -> is_eof c = false -> exists p t, c = Cons EOL p t.
Proof. destruct c as [|[|r] p t]; cbn; try discriminate; eauto. Qed.

Lemma getall_eol c s c1 : wf c -> is_eof c = false -> getn_all c = (s, c1) ->
  exists p t, c1 = Cons EOL p t.
Proof.
  intros Hw He H. apply getn_all_spells in H. destruct H as [H1 H2].
  apply at_end_eol; auto. eapply wf_sfx; eauto. eapply spells_sfx; eauto.
  destruct s. cbn in H1. subst; auto. eapply spells_not_eof; eauto. discriminate.
Qed.

Lemma line_end_sfx s l a c e : spells s a c -> spells l a e -> at_end e -> sfx e c.
Proof.
  revert l a; induction s as [|r s IH]; intros l a H K E.
  - cbn in H. subst. eapply spells_sfx; eauto.
  - cbn [spells] in H. destruct a as [|[|r'] p t]; try contradiction. destruct H as [_ H].
    destruct l as [|r2 l]; cbn [spells] in K.
    + subst e. discriminate E.
    + destruct K. eauto.
Qed.

Lemma getn_length n c s c' : getn n c = (s, c') -> getn (length s) c = (s, c').
Proof.
  revert c s c'; induction n; cbn [getn]; intros c s c' H.
  - inversion H; reflexivity.
  - destruct c as [|[|r'] p t]; try (inversion H; reflexivity).
    destruct (getn n t) as [s0 c0] eqn:E. inversion H; subst. cbn [length getn].
    rewrite (IHn _ _ _ E). auto.
Qed.
Lemma peekn_getn n c s : peekn n c = s -> exists c', getn (length s) c = (s, c') /\ spells s c c'.
Proof.
  unfold peekn. destruct (getn n c) as [s0 c0] eqn:E. cbn [fst]. intros <-. exists c0. split.
  eapply getn_length; eauto. eapply getn_spells; eauto.
Qed.
Lemma spells_getn s c c' : spells s c c' -> getn (length s) c = (s, c').
Proof.
  revert c; induction s as [|r s IH]; cbn [spells length getn]; intros c H. subst; reflexivity.
  destruct c as [|[|r'] p t]; try contradiction. destruct H as [-> H]. rewrite (IH _ H). auto.
Qed.

Lemma peek1_some c r : peek1 c = Some r -> exists p t, c = Cons (R r) p t.
Proof. destruct c as [|[|r'] p t]; cbn; try discriminate. intros H; inversion H; eauto. Qed.
Lemma o_in_peek1 f c : o_in f (peek1 c) = true -> exists r p t, c = Cons (R r) p t /\ f r = true.
Proof. destruct c as [|[|r'] p t]; cbn; try discriminate; eauto. Qed.
Lemma o_is_peek1 c r : o_is (peek1 c) r = true -> exists p t, c = Cons (R r) p t.
Proof.
  destruct c as [|[|r'] p t]; cbn; try discriminate. intros H. apply N.eqb_eq in H. subst; eauto.
Qed.

(** * Texts *)

Lemma getstr_same c : getstr c c = [].
Proof. unfold getstr. rewrite Nat.sub_diag. reflexivity. Qed.
Lemma getstr_n_add m n a b : sfx b a -> (clen a = m + clen b)%nat ->
  getstr_n (m + n) a = getstr_n m a ++ getstr_n n b.
Proof.
  revert a; induction m; intros a H K.
  - replace b with a. reflexivity. symmetry. apply sfx_same; auto.
  - inversion H; subst. lia. cbn [clen] in K. cbn [Nat.add getstr_n app]. f_equal. apply IHm; auto.
Qed.
Lemma getstr_app a b c : sfx b a -> sfx c b -> getstr a c = getstr a b ++ getstr b c.
Proof.
  intros H K. unfold getstr. pose proof (sfx_clen _ _ H). pose proof (sfx_clen _ _ K).
  replace (clen a - clen c)%nat with ((clen a - clen b) + (clen b - clen c))%nat by lia.
  apply getstr_n_add; auto. lia.
Qed.
Lemma getstr_eol p t c : sfx c t -> getstr (Cons EOL p t) c = 10 :: getstr t c.
Proof.
  intros H. rewrite (getstr_app _ t); auto. 2: constructor; constructor.
  unfold getstr at 1. cbn [clen]. replace (S (clen t) - clen t)%nat with 1%nat by lia. reflexivity.
Qed.

Lemma digits_val_fold s n : digits_val n s = fold_left (fun n d => 10 * n + (d - C "0")) s n.
Proof.
  revert n; induction s as [|r s IH]; intros n; cbn [digits_val fold_left]; auto.
  rewrite IH. f_equal. lia.
Qed.

(** * Modifiers *)

Section Base.
Context (neovim : bool) (B : cursor) (HB : wf B).

Lemma str2nr_safe s a b : sfx a B -> spells s a b -> some_of isdigit s ->
  csafe neovim B (fun z => z = Z.of_N (decimal s)) (str2nr s).
Proof.
  intros Ha Hs Hd. unfold str2nr. rewrite digits_val_fold. fold (decimal s).
  destruct (decimal s <=? 2147483647) eqn:E; cbn [csafe]; auto.
  exists s, a, b. repeat split; auto. apply Hd. apply Hd. lia.
Qed.

Lemma find_hide k : find_modifier modifier_table k = Some (T "hide") -> In k [T "hid"; T "hide"].
Proof.
  unfold modifier_table. cbn [find_modifier].
  repeat match goal with
  | |- (if ?b then Some ?n else ?r) = _ -> _ => destruct b eqn:?; [discriminate|]
  end.
  match goal with |- (if ?b then _ else _) = _ -> _ => destruct b eqn:E end; [intros _|].
  - apply andb_true_iff in E. destruct E as [E1 E2]. apply Nat.leb_le in E2. clear - E1 E2.
    destruct k as [|k1 [|k2 [|k3 k4]]]; cbn in E2; try lia.
    cbn [is_prefix] in E1. repeat rewrite andb_true_iff in E1.
    destruct E1 as [A1 [A2 [A3 A4]]].
    apply N.eqb_eq in A1. apply N.eqb_eq in A2. apply N.eqb_eq in A3. subst.
    destruct k4 as [|k5 k6]; cbn [is_prefix] in A4. left; auto.
    apply andb_true_iff in A4. destruct A4 as [A4 A5]. apply N.eqb_eq in A4. subst.
    destruct k6; [|discriminate A5]. right; left; auto.
  - repeat match goal with
    | |- (if ?b then Some ?n else ?r) = _ -> _ => destruct b; [discriminate|]
    end. discriminate.
Qed.

Lemma find_modifier_nonempty k n : find_modifier modifier_table k = Some n -> k <> [].
Proof. intros H ->. vm_compute in H. discriminate. Qed.

Definition mods_post (c : cursor) : list modifier * cursor -> Prop :=
  fun '(ms, c') => same_line c c' /\ (ms = [] -> gap c c').

Lemma modifiers_safe : forall n c, sfx c B -> (clen c < n)%nat ->
  csafe neovim B (mods_post c) (modifiers_loop n c).
Proof.
  induction n as [|n IH]; intros c Hc Hn; [lia|]. cbn [modifiers_loop].
  match goal with |- csafe _ _ _ (let '(d, c1) := ?e in _) => destruct e as [d c1] eqn:Ed end.
  assert (Hd : exists s w, s = d ++ w /\ spells s c c1 /\ forallb isdigit d = true /\
    forallb iswhite w = true /\ (d <> [] -> exists b, spells d c b)).
  { destruct (o_in isdigit (peek1 c)) eqn:E.
    - unfold read_digit in Ed. destruct (read_while isdigit c) as [d0 c0] eqn:E2.
      inversion Ed; subst. apply read_while_spells in E2. destruct E2 as [E2 [E3 _]].
      destruct (skip_while_spells iswhite c0) as [w [Hw [Hw2 _]]].
      exists (d ++ w), w. repeat split; auto. eapply spells_app; eauto. eauto.
    - inversion Ed; subst. exists [], []. repeat split; auto; congruence. }
  destruct Hd as [s [w [Es [Sp [Hdig [Hwh Hdb]]]]]].
  unfold read_alpha. destruct (read_while isalpha c1) as [k c2] eqn:Ek.
  apply read_while_spells in Ek. destruct Ek as [Spk _].
  destruct (find_modifier modifier_table k) as [name|] eqn:Ef; cbn [csafe mods_post];
    [|split; [apply same_line_refl|intros; constructor]].
  pose proof (find_modifier_nonempty _ _ Ef) as Hk.
  destruct (skip_while_spells iswhite c2) as [w2 [Hw2 [Hw3 _]]].
  fold (skip_white c2) in Hw2.
  assert (Hline : same_line c (skip_white c2)).
  { eapply same_line_trans. eapply spells_line; eauto.
    eapply same_line_trans. eapply spells_line; eauto. eapply spells_line; eauto. }
  assert (Hlt : (clen (skip_white c2) < clen c)%nat).
  { apply spells_clen in Sp. apply spells_clen in Spk. apply spells_clen in Hw2.
    destruct k; [congruence|]. cbn [length] in Spk. lia. }
  destruct (text_eqb name (T "hide") && ends_excmds1 (peek1 c2)) eqn:Eh.
  - apply andb_true_iff in Eh. destruct Eh as [Eh _]. apply text_eqb_eq in Eh. subst name.
    cbn [csafe mods_post]. split; auto. intros _. apply find_hide in Ef.
    eapply gap_hide with (s := s ++ k ++ w2); [|exists d, w, k, w2|constructor].
    + eapply spells_app; eauto. eapply spells_app; eauto.
    + subst s. rewrite <- !app_assoc. auto.
  - set (c3 := skip_white c2) in *.
    assert (Hgen : forall m c4, same_line c3 c4 ->
      csafe neovim B (mods_post c) (let* '(ms, c5) := modifiers_loop n c4 in Ok (m :: ms, c5))).
    { intros m c4 H4. pose proof (sfx_clen _ _ (same_line_sfx _ _ H4)).
      csafe_b. apply (IH c4). eapply sfx_trans; [|exact Hc].
      apply same_line_sfx. eapply same_line_trans; eauto. lia.
      intros [ms c5] [H5 _]. cbn [csafe mods_post]. split; [|discriminate].
      eapply same_line_trans; [exact Hline|]. eapply same_line_trans; eauto. }
    assert (Hnum : forall mk, csafe neovim B (mods_post c)
       (let* '(m, c4) := (let* z := str2nr d in Ok (mk z, c3)) in
        let* '(ms, c5) := modifiers_loop n c4 in Ok (m :: ms, c5)) \/ is_nil d = true).
    { intros mk. destruct (is_nil d) eqn:En; [right; auto|left].
      assert (Hd : d <> []) by (intros ->; discriminate En). destruct (Hdb Hd) as [b Hb].
      csafe_b. csafe_b. eapply str2nr_safe; eauto. split; auto. intros z _.
      instantiate (1 := fun '(m, c4) => c4 = c3). reflexivity.
      intros [m c4] ->. apply Hgen. apply same_line_refl. }
    destruct (text_eqb name (T "silent")).
    { destruct (o_is (peek1 c2) (C "!")) eqn:Ei; cbn [bind]; apply Hgen.
      - apply o_is_peek1 in Ei. destruct Ei as [p [t Et]].
        assert (c3 = c2) by (subst c3; rewrite Et; reflexivity).
        rewrite H, Et. cbn [get snd]. exists [C "!"]. cbn. auto.
      - apply same_line_refl. }
    destruct (text_eqb name (T "tab")).
    { destruct (is_nil d) eqn:En; cbn [bind]. apply Hgen, same_line_refl.
      destruct (Hnum (fun z => mkMod name None (Some z))) as [H|H]; [exact H|congruence]. }
    destruct (text_eqb name (T "verbose")).
    { destruct (is_nil d) eqn:En; cbn [bind]. apply Hgen, same_line_refl.
      destruct (Hnum (fun z => mkMod name None (Some z))) as [H|H]; [exact H|congruence]. }
    cbn [bind]. apply Hgen, same_line_refl.
Qed.

(** * Patterns and ranges *)

Definition pattern_post (delim : N) (inb : Z) (c : cursor) : text * bool * cursor -> Prop :=
  fun '(s, closed, c') =>
    if closed : bool then pattern_text delim inb s 0 /\ exists q, spells s c (Cons (R delim) q c')
    else (exists j, pattern_text delim inb s j) /\ spells s c c' /\ at_end c'.

Lemma pattern_safe delim : forall n c inb, (clen c <= n)%nat -> sfx c B ->
  safe B (pattern_post delim inb c) (pattern_loop delim inb c).
Proof.
  assert (Hend : forall c inb, at_end c -> safe B (pattern_post delim inb c) (Ok ([], false, c))).
  { intros c inb H. cbn [safe pattern_post]. split; [exists inb; constructor|]. split; [reflexivity|exact H]. }
  induction n as [|n IH]; intros c inb Hn Hc.
  - destruct c; cbn [clen] in Hn; [|lia]. cbn [pattern_loop]. apply Hend. reflexivity.
  - destruct c as [p|[|r] p t]; cbn [pattern_loop]; try (apply Hend; reflexivity).
    cbn [clen] in Hn. pose proof (sfx_tail _ _ _ _ Hc) as Ht.
    destruct ((r =? delim) && (inb =? 0)%Z) eqn:E1.
    { apply andb_true_iff in E1. destruct E1 as [E1 E0]. apply N.eqb_eq in E1. apply Z.eqb_eq in E0. subst.
      cbn [safe pattern_post]. split; [constructor|]. eexists; reflexivity. }
    assert (Hd : r <> delim \/ inb <> 0%Z).
    { apply andb_false_iff in E1. destruct E1 as [E1|E1]; [left; apply N.eqb_neq|right; apply Z.eqb_neq]; exact E1. }
    destruct (r =? 92) eqn:E2.
    { apply N.eqb_eq in E2. subst r.
      destruct t as [p1|[|r2] p1 t2]; try (apply safe_raise; [auto|apply (cf_pattern _ _ p); [exact Hc|reflexivity]]; fail).
      cbn [clen] in Hn. safe_b. apply (IH t2 inb). lia. eapply sfx_tail; eauto.
      intros [[s e] c'] H. cbn [safe pattern_post] in *.
      assert (Hp : forall j, pattern_text delim inb s j -> pattern_text delim inb (92 :: r2 :: s) j).
      { intros j. apply pt_escape. destruct Hd; auto. }
      destruct e.
      - destruct H as [H0 [q H]]. split; [auto|]. exists q. cbn [spells]. auto.
      - destruct H as [[j H0] [H1 H2]]. split; [exists j; auto|]. split; cbn [spells]; auto. }
    apply N.eqb_neq in E2.
    safe_b. apply (IH t). lia. auto.
    intros [[s e] c'] H. cbn [safe pattern_post] in *.
    pose proof (fun j => pt_char delim r s inb j E2 Hd) as Hp.
    destruct e.
    + destruct H as [H0 [q H]]. split; [auto|]. exists q. cbn [spells]. auto.
    + destruct H as [[j H0] [H1 H2]]. split; [exists j; auto|]. split; cbn [spells]; auto.
Qed.

Lemma pattern_line delim c : sfx c B ->
  safe B (fun '(_, _, c') => same_line c c') (parse_pattern delim c).
Proof.
  intros H. eapply safe_imp; [|apply pattern_safe with (n := clen c); auto].
  intros [[s e] c'] K. cbn [pattern_post] in K. destruct e.
  - destruct K as [_ [q K]]. eapply same_line_trans. eapply spells_line; eauto.
    exists [delim]. cbn. auto.
  - destruct K as [_ [K _]]. eapply spells_line; eauto.
Qed.

Lemma read_integer_spells c s c' : read_integer c = (s, c') -> spells s c c'.
Proof.
  unfold read_integer, read_digit. destruct (o_in _ (peek1 c)).
  - destruct (getn 1 c) as [s1 c1] eqn:E1. destruct (read_while isdigit c1) as [d c2] eqn:E2.
    intros H; inversion H; subst. apply getn_spells in E1. apply read_while_spells in E2.
    eapply spells_app; eauto. apply E2.
  - intros H. apply read_while_spells in H. apply H.
Qed.

Definition toks_post (c : cursor) : list text * cursor -> Prop :=
  fun '(ts, c') => same_line c c' /\ (ts = [] -> gap c c').

Lemma range_ints_safe : forall n c, sfx c B -> (clen c < n)%nat ->
  safe B (toks_post c) (range_ints n c).
Proof.
  induction n as [|n IH]; intros c Hc Hn; [lia|]. cbn [range_ints].
  pose proof (skip_line iswhite c) as Hw. fold (skip_white c) in Hw.
  destruct (peek1 (skip_white c)) as [r|] eqn:Ep; [|cbn; split; [auto|intros; apply gap_white]].
  destruct (read_integer (skip_white c)) as [s c1] eqn:Er. apply read_integer_spells in Er.
  destruct (is_nil s) eqn:En.
  - destruct s; [|discriminate]. cbn in Er. subst c1. cbn. split; [auto|intros; apply gap_white].
  - destruct s; [discriminate|]. pose proof (spells_clen _ _ _ Er) as Hl. cbn [length] in Hl.
    pose proof (sfx_clen _ _ (same_line_sfx _ _ Hw)).
    assert (Hl1 : same_line c c1) by (eapply same_line_trans; eauto; eapply spells_line; eauto).
    safe_b. apply (IH c1). eapply sfx_trans; [apply same_line_sfx; exact Hl1|auto]. lia.
    intros [ss c2] [H2 _]. cbn [safe toks_post]. split; [|discriminate].
    eapply same_line_trans; eauto.
Qed.

(** A line specifier is read, or nothing, or an unfinished mark. *)
Definition spec_post (c : cursor) : list text * bool * cursor -> Prop :=
  fun '(ts, go, c') => same_line c c' /\ (ts = [] -> gap c c') /\
    (ts = [] -> go = true -> c' = c /\ ch_is (peek c) (C "/") || ch_is (peek c) (C "?") = false) /\ (ts <> [] -> (clen c' < clen c)%nat).

Lemma range_spec_safe r p t : sfx (Cons (R r) p t) B ->
  safe B (spec_post (Cons (R r) p t)) (range_spec r (Cons (R r) p t)).
Proof.
  intros Hc. pose proof (sfx_tail _ _ _ _ Hc) as Ht. unfold range_spec.
  assert (Hw : wf (Cons (R r) p t)) by (eapply wf_sfx; eauto).
  assert (Hone : same_line (Cons (R r) p t) t) by (exists [r]; cbn; auto).
  destruct ((r =? C ".") || (r =? C "$")).
  { cbn. repeat split; auto; try discriminate. }
  destruct (r =? C "'") eqn:Eq.
  { apply N.eqb_eq in Eq. subst r. cbn [getn snd].
    destruct t as [p1|[|r2] p1 t2]; cbn [is_nil safe].
    - discriminate (proj2 Hw).
    - split; [auto|]. split; [intros _|split; [discriminate|congruence]].
      apply gap_mark with (b := Cons EOL p1 t2); [cbn; auto|reflexivity|constructor].
    - unfold spec_post. repeat split; auto; try discriminate.
      exists [C "'"; r2]. cbn. auto. intros _. cbn [clen]. lia. }
  destruct ((r =? C "/") || (r =? C "?")) eqn:Esl.
  { cbn [getn snd]. safe_b. apply (pattern_line r t); auto. intros [[s e] c2] H. cbn [safe spec_post].
    repeat split; try discriminate. eapply same_line_trans; eauto.
    intros _. apply same_line_sfx, sfx_clen in H. cbn [clen]. lia. }
  destruct (r =? 92) eqn:Eb.
  { rewrite p_S, p_0 by auto. cbn [bind].
    destruct (ch_is (peek t) (C "&") || ch_is (peek t) (C "?") || ch_is (peek t) (C "/")) eqn:Em.
    - destruct t as [p1|[|r2] p1 t2]; try discriminate Em. cbn [seek_cur bind safe].
      repeat split; try discriminate. exists [r; r2]. cbn; auto. intros _. cbn [clen]. lia.
    - apply N.eqb_eq in Eb. subst r. apply safe_raise; auto. apply cf_search; [reflexivity|].
      intros r c' Hr [_ K]. destruct t as [|[|r2] p1 t2]; try contradiction. destruct K as [-> _]. cbn in Em, Hr.
      destruct Hr as [<-|[<-|[<-|[]]]]; discriminate Em. }
  destruct (isdigit r) eqn:Ed.
  { unfold read_digit. cbn [read_while]. rewrite Ed.
    destruct (read_while isdigit t) as [s c1] eqn:E1. apply read_while_spells in E1.
    cbn [safe spec_post]. destruct E1 as [E1 _]. repeat split; try discriminate.
    exists (r :: s). cbn; auto. intros _. apply spells_clen in E1. cbn [clen]. lia. }
  cbn [safe spec_post]. split; [apply same_line_refl|]. split; [constructor|].
  split; [|congruence]. intros _ _. split; auto.
Qed.

Lemma range_inner_safe : forall n c, sfx c B -> (clen c < n)%nat ->
  safe B (toks_post c) (range_inner n c).
Proof.
  induction n as [|n IH]; intros c Hc Hn; [lia|]. cbn [range_inner].
  pose proof (skip_line iswhite c) as Hw. fold (skip_white c) in Hw.
  pose proof (gap_white c) as Hg.
  assert (Hs : sfx (skip_white c) B) by (eapply sfx_trans; [apply same_line_sfx; exact Hw|auto]).
  destruct (peek1 (skip_white c)) as [r|] eqn:Ep; [|cbn; split; auto].
  apply peek1_some in Ep. destruct Ep as [p [t Ep]]. rewrite Ep in *.
  safe_b. apply range_spec_safe; auto. intros [[toks go] c1] [H1 [H2 [H3 H4]]].
  assert (L1 : same_line c c1) by (eapply same_line_trans; eauto).
  assert (S1 : sfx c1 B) by (eapply sfx_trans; [apply same_line_sfx; exact L1|auto]).
  destruct go; cbn [negb].
  2: { cbn [safe toks_post]. split; auto. intros E. eapply gap_trans; eauto. }
  safe_b. apply range_ints_safe; auto. intros [ints c2] [H5 H6].
  rewrite p_0. cbn [bind].
  assert (L2 : same_line c c2) by (eapply same_line_trans; eauto).
  assert (S2 : sfx c2 B) by (eapply sfx_trans; [apply same_line_sfx; exact L2|auto]).
  destruct (ch_is (peek c2) (C "/") || ch_is (peek c2) (C "?")) eqn:E2.
  - assert (Hlt : (clen c2 < clen c)%nat).
    { pose proof (sfx_clen _ _ (same_line_sfx _ _ Hw)).
      pose proof (sfx_clen _ _ (same_line_sfx _ _ H5)).
      destruct toks as [|tk0 toks].
      - (* nothing read: then the character is a slash, which range_spec reads *)
        destruct (H3 eq_refl eq_refl) as [-> H3'].
        pose proof (sfx_clen _ _ (same_line_sfx _ _ H5)) as Hle.
        destruct (Nat.eq_dec (clen c2) (clen (Cons (R r) p t))) as [Heq|]; [|lia].
        exfalso. assert (c2 = Cons (R r) p t) by (apply sfx_same; auto; apply same_line_sfx; auto).
        subst c2. congruence.
      - specialize (H4 ltac:(discriminate)). lia. }
    safe_b. apply (IH c2); auto. lia. intros [more c3] [H7 H8]. cbn [safe toks_post]. split.
    eapply same_line_trans; eauto.
    intros E. apply app_eq_nil in E. destruct E as [E E3]. apply app_eq_nil in E3. destruct E3.
    eapply gap_trans; eauto. eapply gap_trans; eauto. eapply gap_trans; eauto.
  - cbn [safe toks_post]. split; auto. intros E. apply app_eq_nil in E. destruct E.
    eapply gap_trans; eauto. eapply gap_trans; eauto.
Qed.

End Base.
