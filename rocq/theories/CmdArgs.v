(** The command parser, part 2: ranges, arguments, command names. *)
From Coq Require Import Lia ZifyBool ZifyNat ZifyN.
From Verif Require Import Base CharClass Reader Vnode Tokenizer ExprParser CmdTable CmdParser
  Cursor Grammar TokSafe ExprSafe Script Fault Safe CmdBase.

(** * Lines *)

Lemma rest_exists c : exists s, rest_of c s.
Proof.
  destruct (getn_all c) as [s z] eqn:E. apply getn_all_spells in E. exists s, z. auto.
Qed.
Lemma rest_app s a b t : spells s a b -> rest_of b t -> rest_of a (s ++ t).
Proof. intros H [z [K1 K2]]. exists z. split; auto. eapply spells_app; eauto. Qed.
Lemma rest_unique c s t : rest_of c s -> rest_of c t -> s = t.
Proof.
  intros [z [H1 H2]] [y [K1 K2]]. revert c t H1 K1; induction s as [|r s IH]; intros c t H1 K1.
  - cbn in H1. subst z. destruct t as [|r' t]; auto. cbn in K1.
    destruct c as [|[|r0] p u]; try contradiction. discriminate H2.
  - destruct c as [|[|r0] p u]; cbn [spells] in H1; try contradiction. destruct H1 as [-> H1].
    destruct t as [|r' t]; cbn [spells] in K1. subst y. discriminate K2.
    destruct K1 as [-> K1]. f_equal. eapply IH; eauto.
Qed.
Lemma peek1_rest c s : rest_of c s -> peek1 c = match s with r :: _ => Some r | [] => None end.
Proof.
  intros [z [H1 H2]]. destruct s as [|r s]; cbn in H1. subst; auto.
  destruct c as [|[|r0] p u]; cbn in H1; try contradiction. destruct H1 as [-> _]. reflexivity.
Qed.
Lemma o_in_rest f c s : rest_of c s -> o_in f (peek1 c) = starts_with f s.
Proof. intros H. rewrite (peek1_rest _ _ H). destruct s; reflexivity. Qed.
Lemma o_is_rest r c s : rest_of c s -> o_is (peek1 c) r = starts_with (fun x => x =? r) s.
Proof. intros H. rewrite (peek1_rest _ _ H). destruct s; reflexivity. Qed.
Lemma rest_tail r p t s : rest_of (Cons (R r) p t) s -> exists s', s = r :: s' /\ rest_of t s'.
Proof.
  intros H. pose proof (peek1_rest _ _ H) as Hp. destruct s as [|r' s']; cbn in Hp; inversion Hp; subst.
  exists s'. split; auto. destruct H as [z [H1 H2]]. cbn in H1. exists z. tauto.
Qed.

Lemma peekn_rest n c s : rest_of c s -> peekn n c = firstn n s.
Proof.
  revert c s; induction n as [|n IH]; intros c s H; [reflexivity|].
  unfold peekn in *. cbn [getn]. pose proof (peek1_rest _ _ H) as Hp.
  destruct c as [p|[|r] p t]; cbn [peek1] in Hp.
  - destruct s; [reflexivity|discriminate].
  - destruct s; [reflexivity|discriminate].
  - destruct (rest_tail _ _ _ _ H) as [s' [-> Hs]]. specialize (IH _ _ Hs).
    destruct (getn n t). cbn in *. congruence.
Qed.

(** * Options *)

Lemma is_prefix_app s n : is_prefix s n = true <-> exists r, n = s ++ r.
Proof.
  revert n. induction s as [|x s IH]; intros n; cbn [is_prefix].
  - split; [intros _; exists n; reflexivity|reflexivity].
  - destruct n as [|y n]. split; [discriminate|]. intros [r H]; discriminate.
    split.
    + intros H. apply andb_true_iff in H. destruct H as [H1 H2]. apply N.eqb_eq in H1. subst.
      apply IH in H2. destruct H2 as [r ->]. exists r. auto.
    + intros [r H]. inversion H; subst. rewrite N.eqb_refl. apply IH. eauto.
Qed.

Lemma lit_b lit t : (length lit < 20)%nat -> word_ends t -> re_lit_b lit (firstn 20 (lit ++ t)) = true.
Proof.
  intros Hl Ht. unfold re_lit_b. rewrite firstn_app, firstn_all2 by lia. apply andb_true_iff. split; [apply is_prefix_app; eexists; reflexivity|].
  rewrite skipn_app, skipn_all, Nat.sub_diag. cbn [app skipn]. unfold word_ends in Ht. unfold not_word_at, word_at. destruct t as [|x t]; [rewrite firstn_nil; reflexivity|].
  destruct (20 - length lit)%nat eqn:E; [lia|]. cbn in *. rewrite Ht. reflexivity.
Qed.

Lemma lit_S lit r t : (length lit < 20)%nat -> re_space r = false -> re_lit_S lit (firstn 20 (lit ++ r :: t)) = true.
Proof.
  intros Hl Ht. unfold re_lit_S. rewrite firstn_app, firstn_all2 by lia. apply andb_true_iff. split; [apply is_prefix_app; eexists; reflexivity|].
  rewrite skipn_app, skipn_all, Nat.sub_diag. cbn [app skipn]. destruct (20 - length lit)%nat eqn:E; [lia|]. cbn [firstn]. rewrite Ht. reflexivity.
Qed.
Lemma lit_ff lit v t : (length lit < 16)%nat -> In v [T "dos"; T "unix"; T "mac"] -> word_ends t -> re_lit_ff lit (firstn 20 (lit ++ v ++ t)) = true.
Proof.
  intros Hl Hv Ht. unfold re_lit_ff. cbn [In] in Hv. destruct Hv as [<-|[<-|[<-|[]]]]; rewrite app_assoc, lit_b; auto; try (rewrite app_length; cbn [length]; lia); rewrite ?orb_true_r; reflexivity.
Qed.
Lemma bad_char r t : r <> 10 -> (iswordc r = true <-> word_ends t) -> re_bad (firstn 20 (T "++bad=" ++ r :: t)) = true.
Proof.
  intros Hr H. unfold re_bad. apply orb_true_iff. right. cbn [app firstn skipn is_prefix]. rewrite !N.eqb_refl. cbn [andb].
  apply N.eqb_neq in Hr. rewrite Hr. cbn [negb andb]. unfold word_ends in H. destruct t as [|y t]; cbn in H |- *; destruct (iswordc r); try reflexivity.
  - destruct H as [_ H]. discriminate (H eq_refl).
  - destruct (iswordc y); [|reflexivity]. destruct H as [H _]. discriminate (H eq_refl).
  - destruct (iswordc y); [reflexivity|]. destruct H as [_ H]. discriminate (H eq_refl).
Qed.

(** None of the tests of parse_argopt succeeds: there is no option. *)
Lemma no_option c : 
  re_lit_b (T "++bin") (peekn 20 c) = false -> re_lit_b (T "++nobin") (peekn 20 c) = false ->
  re_lit_b (T "++edit") (peekn 20 c) = false -> re_lit_ff (T "++ff=") (peekn 20 c) = false ->
  re_lit_ff (T "++fileformat=") (peekn 20 c) = false -> re_lit_S (T "++enc=") (peekn 20 c) = false ->
  re_lit_S (T "++encoding=") (peekn 20 c) = false -> re_bad (peekn 20 c) = false ->
  forall t rest o, rest_of c (t ++ rest) -> ~ option_text rest t o.
Proof.
  intros E1 E2 E3 E4 E5 E6 E7 E8 t rest o Hr Ho. rewrite (peekn_rest _ _ _ Hr) in *.
  destruct Ho as [H|H|H|p v Hp Hv H|p r v Hp Hr' Hv H|v Hv H|r H1 H2]; try rewrite <- app_assoc in *; clear Hr.
  - clear - E1 H. rewrite lit_b in E1; [discriminate|cbn; lia|auto].
  - clear - E2 H. rewrite lit_b in E2; [discriminate|cbn; lia|auto].
  - clear - E3 H. rewrite lit_b in E3; [discriminate|cbn; lia|auto].
  - clear - E4 E5 Hp Hv H. cbn [In] in Hp. destruct Hp as [<-|[<-|[]]].
    + clear E5. rewrite lit_ff in E4; [discriminate|cbn; lia|auto|auto].
    + clear E4. rewrite lit_ff in E5; [discriminate|cbn; lia|auto|auto].
  - clear - E6 E7 Hp Hr'.
    assert (Hsp : re_space r = false). { destruct (re_space r) eqn:E; auto. exfalso. apply Hr'. clear - E. unfold re_space in E. cbn. cbn in E. lia. }
    cbn [In] in Hp. destruct Hp as [<-|[<-|[]]].
    + clear E7. change ((r :: v) ++ rest) with (r :: v ++ rest) in E6. rewrite lit_S in E6; [discriminate|cbn; lia|auto].
    + clear E6. change ((r :: v) ++ rest) with (r :: v ++ rest) in E7. rewrite lit_S in E7; [discriminate|cbn; lia|auto].
  - assert (Hb : re_bad (firstn 20 (T "++bad=" ++ v ++ rest)) = true).
    { unfold re_bad. cbn [In] in Hv. destruct Hv as [<-|[<-|[]]]; [rewrite (lit_b (T "++bad=keep") rest ltac:(clear; cbn; lia) H : re_lit_b (T "++bad=keep") (firstn 20 (T "++bad=" ++ T "keep" ++ rest)) = true)|
        rewrite (lit_b (T "++bad=drop") rest ltac:(clear; cbn; lia) H : re_lit_b (T "++bad=drop") (firstn 20 (T "++bad=" ++ T "drop" ++ rest)) = true), orb_true_r]; reflexivity. }
    congruence.
  - pose proof (bad_char r rest H1 H2) as Hb. change ([r] ++ rest) with (r :: rest) in *. congruence.
Qed.

Section Args.
Context (B : cursor) (HB : wf B).

Lemma line_B a b : same_line a b -> sfx a B -> sfx b B.
Proof. intros H K. eapply sfx_trans; [apply same_line_sfx; exact H|auto]. Qed.

Lemma range_loop_safe : forall n c, sfx c B -> (clen c < n)%nat ->
  safe B (toks_post c) (range_loop n c).
Proof.
  induction n as [|n IH]; intros c Hc Hn; [lia|]. cbn [range_loop].
  safe_b. apply range_inner_safe; auto. intros [toks c1] [H1 H2].
  match goal with |- safe _ _ (let '(t2, c2) := ?e in _) => destruct e as [t2 c2] eqn:E2 end.
  assert (H3 : same_line c1 c2 /\ (t2 = [] -> c2 = c1)).
  { destruct (o_in _ (peek1 c1)).
    - destruct (getn 1 c1) as [s0 c0] eqn:E3. inversion E2; subst. split.
      apply getn_spells in E3. eapply spells_line; eauto. discriminate.
    - inversion E2; subst. split; auto. apply same_line_refl. }
  destruct H3 as [H3 H4].
  assert (L2 : same_line c c2) by (eapply same_line_trans; eauto).
  destruct (o_in (fun r => (r =? C ";") || (r =? C ",")) (peek1 c2)) eqn:E4.
  - apply o_in_peek1 in E4. destruct E4 as [r [p [t [-> _]]]]. cbn [getn].
    pose proof (sfx_clen _ _ (same_line_sfx _ _ L2)) as Hl. cbn [clen] in Hl.
    assert (L3 : same_line c t). { eapply same_line_trans; [exact L2|]. exists [r]; cbn; auto. }
    safe_b. apply (IH t). eapply line_B; eauto. lia.
    intros [more c4] [H5 _]. cbn [safe toks_post]. split. eapply same_line_trans; eauto.
    intros E. apply app_eq_nil in E. destruct E as [_ E]. apply app_eq_nil in E. destruct E; discriminate.
  - cbn [safe toks_post]. split; auto. intros E. apply app_eq_nil in E. destruct E as [E E5].
    specialize (H4 E5). subst. auto.
Qed.

Lemma parse_range_safe c : sfx c B -> safe B (toks_post c) (parse_range c).
Proof. intros. apply range_loop_safe; auto. Qed.

(** The parts of ExArg a command header fixes. *)
Definition core (e : exarg) := (ea_linepos e, ea_cmdpos e, ea_argpos e, ea_cmd e).

Lemma getn_less n r p t : (clen (snd (getn (S n) (Cons (R r) p t))) < clen (Cons (R r) p t))%nat.
Proof.
  cbn [getn]. pose proof (getn_line n t) as H. destruct (getn n t) as [s0 c0]. cbn [snd] in *.
  apply same_line_sfx, sfx_clen in H. cbn [clen]. lia.
Qed.

Definition args_post (e : exarg) (c : cursor) : exarg * cursor -> Prop :=
  fun '(e', c') => core e' = core e /\ same_line c c'.

Lemma argopt_safe : forall n e c, sfx c B -> (clen c < n)%nat ->
  safe B (args_post e c) (argopt_loop n e c).
Proof.
  induction n as [|n IH]; intros e c Hc Hn; [lia|]. cbn [argopt_loop].
  assert (Hstop : args_post e c (e, c)) by (split; [auto|apply same_line_refl]).
  destruct (p_match_spells (T "++") 0 c c) as [[Hm [d' Hd]]|Hm]; auto.
  { eapply wf_sfx; eauto. }
  2: { rewrite Hm. cbn [bind negb safe]. exact Hstop. }
  rewrite Hm. cbn [bind negb].
  destruct c as [|[|r0] p0 t0]; try (exfalso; exact Hd). clear Hm.
  set (c := Cons (R r0) p0 t0) in *.
  assert (Hgo : forall e1 c1, core e1 = core e -> same_line c c1 -> (clen c1 < clen c)%nat ->
     safe B (args_post e c) (let* '(e2, c2) := Ok (e1, c1) in argopt_loop n e2 (skip_white c2))).
  { intros e1 c1 Hcore H1 H2. cbn [bind].
    pose proof (skip_line iswhite c1) as H3. fold (skip_white c1) in H3.
    pose proof (sfx_clen _ _ (same_line_sfx _ _ H3)).
    assert (L : same_line c (skip_white c1)) by (eapply same_line_trans; eauto).
    eapply safe_imp; [|apply (IH e1 (skip_white c1)); [eapply line_B; eauto|lia]].
    intros [e2 c2] [K1 K2]. split. congruence. eapply same_line_trans; eauto. }
  assert (Hgetn : forall m, same_line c (snd (getn (S m) c)) /\ (clen (snd (getn (S m) c)) < clen c)%nat).
  { intros m. split. apply getn_line. apply getn_less. }
  assert (Hread : forall f m v c', read_while f (snd (getn (S m) c)) = (v, c') ->
     same_line c c' /\ (clen c' < clen c)%nat).
  { intros f m v c' E. destruct (Hgetn m) as [G1 G2].
    pose proof (read_line f (snd (getn (S m) c))) as G3. rewrite E in G3. cbn [snd] in G3.
    pose proof (sfx_clen _ _ (same_line_sfx _ _ G3)). split. eapply same_line_trans; eauto. lia. }
  destruct (re_lit_b (T "++bin") (peekn 20 c)) eqn:N0. { apply Hgo; auto; apply Hgetn. }
  destruct (re_lit_b (T "++nobin") (peekn 20 c)) eqn:N1. { apply Hgo; auto; apply Hgetn. }
  destruct (re_lit_b (T "++edit") (peekn 20 c)) eqn:N2. { apply Hgo; auto; apply Hgetn. }
  destruct (re_lit_ff (T "++ff=") (peekn 20 c)) eqn:N3.
  { unfold read_alpha. destruct (read_while isalpha (snd (getn 5 c))) as [v c'] eqn:E.
    apply Hread in E. apply Hgo; auto; apply E. }
  destruct (re_lit_ff (T "++fileformat=") (peekn 20 c)) eqn:N4.
  { unfold read_alpha. destruct (read_while isalpha (snd (getn 13 c))) as [v c'] eqn:E.
    apply Hread in E. apply Hgo; auto; apply E. }
  destruct (re_lit_S (T "++enc=") (peekn 20 c)) eqn:N5.
  { unfold read_nonwhite. destruct (read_while _ (snd (getn 6 c))) as [v c'] eqn:E.
    apply Hread in E. apply Hgo; auto; apply E. }
  destruct (re_lit_S (T "++encoding=") (peekn 20 c)) eqn:N6.
  { unfold read_nonwhite. destruct (read_while _ (snd (getn 11 c))) as [v c'] eqn:E.
    apply Hread in E. apply Hgo; auto; apply E. }
  destruct (re_bad (peekn 20 c)) eqn:N7.
  { destruct (getn _ (snd (getn 6 c))) as [v c''] eqn:E.
    destruct (Hgetn 5%nat) as [G1 G2]. apply getn_spells in E.
    apply Hgo; auto. eapply same_line_trans; [exact G1|eapply spells_line; eauto].
    pose proof (spells_clen _ _ _ E). lia. }
  apply safe_raise; auto. apply (cf_option _ _ d'); [exact Hd|]. apply no_option; assumption.
Qed.

Lemma read_cmdarg_line : forall n c, (clen c <= n)%nat -> same_line c (snd (read_cmdarg c)).
Proof.
  induction n as [|n IH]; intros c Hn.
  - destruct c; cbn [clen] in Hn; [|lia]. apply same_line_refl.
  - destruct c as [p|[|r] p t]; cbn [read_cmdarg]; try apply same_line_refl. cbn [clen] in Hn.
    destruct (iswhite r). apply same_line_refl.
    destruct (r =? 92).
    + destruct t as [p1|[|r2] p1 t2].
      * cbn [snd]. apply same_line_cons, same_line_refl.
      * cbn [snd]. apply same_line_cons, same_line_refl.
      * cbn [clen] in Hn. specialize (IH t2 ltac:(lia)). destruct (read_cmdarg t2).
        cbn [snd] in *. apply same_line_cons, same_line_cons; auto.
    + specialize (IH t ltac:(lia)). destruct (read_cmdarg t). cbn [snd] in *.
      apply same_line_cons; auto.
Qed.

Lemma parse_argcmd_post e c : args_post e c (parse_argcmd e c).
Proof.
  unfold parse_argcmd. destruct (o_is (peek1 c) (C "+")) eqn:E.
  - destruct (o_is (peek1 (snd (getn 1 c))) (C " ")).
    + split; auto. apply getn_line.
    + pose proof (read_cmdarg_line (clen (snd (getn 1 c))) (snd (getn 1 c)) ltac:(lia)) as H.
      destruct (read_cmdarg (snd (getn 1 c))) as [v c2]. cbn [snd] in H.
      split; auto. eapply same_line_trans; [apply getn_line|exact H].
  - split; auto. apply same_line_refl.
Qed.

Lemma write_args_ends name c0 e c : sfx c B ->
  ends (args_post e c) (fun s m => s = c0 /\ m = T "E494: Use w or w>>" /\ In name [T "write"; T "update"] /\
    peek1 c = Some (C ">") /\ forall c', ~ spells (T ">>") c c') (write_args name (getpos c0) e c).
Proof.
  intros Hc. unfold write_args.
  assert (Hstop : args_post e c (e, c)) by (split; [auto|apply same_line_refl]).
  destruct (text_eqb name (T "write") || text_eqb name (T "update")) eqn:En; [|exact Hstop].
  rewrite p_0. cbn [bind]. destruct (ch_is (peek c) (C ">")) eqn:E.
  - apply ch_is_peek in E. destruct E as [p [t ->]].
    rewrite p_S, p_0 by (eapply wf_sfx; eauto). cbn [bind].
    destruct (ch_is (peek t) (C ">")) eqn:E2; cbn [negb].
    + apply ch_is_peek in E2. destruct E2 as [p2 [t2 ->]]. cbn [seek_cur bind ends].
      split; auto. apply same_line_cons, same_line_cons. apply skip_line.
    + exists c0. repeat split.
      * apply orb_true_iff in En. cbn [In]. destruct En as [En|En]; apply text_eqb_eq in En; subst; auto.
      * intros c' [_ K]. destruct t as [|[|r2] p2 t2]; try contradiction. destruct K as [-> _]. discriminate E2.
  - destruct (o_is (peek1 c) (C "!") && text_eqb name (T "write")); [|exact Hstop].
    split; auto. apply getn_line.
Qed.

Lemma read_args_post name e c : args_post e c (read_args name e c).
Proof.
  unfold read_args. destruct (text_eqb name (T "read")); [destruct (ea_forceit e)|].
  - split; auto. apply same_line_refl.
  - destruct (o_is (peek1 c) (C "!")). split; auto; apply getn_line.
    split; auto. apply same_line_refl.
  - split; auto. apply same_line_refl.
Qed.

Lemma shift_args_post name e c : args_post e c (shift_args name e c).
Proof.
  unfold shift_args. assert (H0 : args_post e c (e, c)) by (split; [auto|apply same_line_refl]).
  destruct name as [|r [|? ?]]; auto. destruct ((r =? C "<") || (r =? C ">")); auto.
  pose proof (read_line (fun x => x =? r) c) as H. destruct (read_while _ c) as [s c1].
  cbn [snd] in H. split; auto. eapply same_line_trans; [exact H|apply skip_line].
Qed.

Lemma join_cons l ls : ls <> [] -> join_lines (l :: ls) = l ++ 10 :: join_lines ls.
Proof. destruct ls; [congruence|reflexivity]. Qed.

End Args.

(** * Command names *)

(** What the cache holds for a name: the table entry, or a user command; the latter for
    a name of letters only if the table has no command of this name; nothing for a name of
    no command. *)
Definition key_ok (neovim : bool) (k : text) (x : cmd) : Prop :=
  (first_match neovim k x /\ ~ user_word neovim k) \/
  (starts_upper k = true /\ x = user_command k /\ (forallb isalpha k = true -> user_word neovim k)).
Definition cache_ok (neovim : bool) (l : list (text * option cmd)) : Prop :=
  Forall (fun kv => (forall x, snd kv = Some x -> key_ok neovim (fst kv) x) /\
    (snd kv = None -> starts_upper (fst kv) = false /\ forall x, ~ first_match neovim (fst kv) x)) l.

Lemma assoc_In {A} k (l : list (text * A)) v : assoc_text k l = Some v -> In (k, v) l.
Proof.
  induction l as [|[x w] l IH]; cbn [assoc_text]; [discriminate|].
  destruct (text_eqb k x) eqn:E.
  - intros H; inversion H; subst. apply text_eqb_eq in E. subst. cbn; auto.
  - intros H. cbn; auto.
Qed.

Lemma matches_iff s x : cmd_matches s x = true <-> abbreviates s x.
Proof.
  unfold cmd_matches, abbreviates. rewrite andb_true_iff, is_prefix_app, N.leb_le. tauto.
Qed.

Lemma find_first s l x : find (cmd_matches s) l = Some x ->
  exists before after, l = before ++ x :: after /\ abbreviates s x /\
    Forall (fun y => ~ abbreviates s y) before.
Proof.
  induction l as [|y l IH]; cbn [find]; [discriminate|].
  destruct (cmd_matches s y) eqn:E.
  - intros H; inversion H; subst. exists [], l. split; [auto|split; [apply matches_iff; auto|constructor]].
  - intros H. destruct (IH H) as [b [a [-> [K1 K2]]]]. exists (y :: b), a. split; [auto|split; [auto|]].
    constructor; auto. rewrite <- matches_iff. congruence.
Qed.

Lemma find_nomatch s l : find (cmd_matches s) l = None -> Forall (fun y => ~ abbreviates s y) l.
Proof.
  intros H. apply Forall_forall. intros y Hy Ha. apply matches_iff in Ha.
  rewrite (find_none _ _ H y Hy) in Ha. discriminate.
Qed.

Lemma lookup_first neovim s x : lookup_builtin neovim s = Some x -> first_match neovim s x.
Proof.
  unfold lookup_builtin, find_in, first_match, command_table. destruct neovim.
  - destruct (find (cmd_matches s) neovim_removed_commands) eqn:E0; [discriminate|].
    destruct (find (cmd_matches s) neovim_additional_commands) eqn:E.
    + intros H; inversion H; subst. apply find_first in E. destruct E as [b [a [E1 E2]]].
      split; [|intros _; apply find_nomatch; auto].
      exists b, (a ++ builtin_commands). rewrite E1. split; auto. rewrite <- app_assoc. reflexivity.
    + intros H. apply find_first in H. destruct H as [b [a [E1 [E2 E3]]]].
      split; [|intros _; apply find_nomatch; auto].
      exists (neovim_additional_commands ++ b), a. rewrite E1. rewrite <- app_assoc.
      split; [|split]; auto. apply Forall_app. split; auto. apply find_nomatch; auto.
  - intros H. apply find_first in H. split; [|discriminate]. exact H.
Qed.

Lemma first_in_fun s l1 (x : cmd) l2 m1 y m2 : l1 ++ x :: l2 = m1 ++ y :: m2 ->
  abbreviates s x -> abbreviates s y -> Forall (fun z => ~ abbreviates s z) l1 ->
  Forall (fun z => ~ abbreviates s z) m1 -> x = y.
Proof.
  revert m1; induction l1 as [|a l1 IH]; intros [|b m1] E Hx Hy H1 H2; cbn in E; inversion E; subst; auto.
  - inversion H2; subst. contradiction.
  - inversion H1; subst. contradiction.
  - inversion H1; inversion H2; subst. eauto.
Qed.
Lemma first_match_fun neovim s x y : first_match neovim s x -> first_match neovim s y -> x = y.
Proof.
  intros [[b [a [E1 [E2 E3]]]] _] [[b' [a' [F1 [F2 F3]]]] _]. rewrite E1 in F1.
  eapply first_in_fun; eauto.
Qed.
Lemma lookup_none neovim s : lookup_builtin neovim s = None -> forall x, ~ first_match neovim s x.
Proof.
  unfold lookup_builtin, find_in. intros H x [[b [a [E1 [E2 E3]]]] E4].
  assert (Hin : In x (command_table neovim)) by (rewrite E1; apply in_or_app; cbn; auto).
  unfold command_table in Hin. apply in_app_or in Hin.
  assert (Hm : forall l, In x l -> find (cmd_matches s) l <> None).
  { intros l Hl K. pose proof (find_none _ _ K _ Hl) as K2. apply matches_iff in E2. congruence. }
  destruct neovim.
  - destruct (find (cmd_matches s) neovim_removed_commands) eqn:Er.
    + apply find_some in Er. destruct Er as [R1 R2]. apply matches_iff in R2.
      specialize (E4 eq_refl). rewrite Forall_forall in E4. exact (E4 _ R1 R2).
    + destruct (find (cmd_matches s) neovim_additional_commands) eqn:Ea; [discriminate|].
      destruct Hin as [Hin|Hin]; apply Hm in Hin; congruence.
  - destruct Hin as [[]|Hin]. apply Hm in Hin. congruence.
Qed.

(** The test of the code for a user command. *)
Lemma user_word_iff neovim name :
  (match lookup_builtin neovim name with
   | None => starts_upper name
   | Some x => text_eqb (c_name x) (T "Print") && starts_upper name
   end) = true <-> user_word neovim name.
Proof.
  unfold user_word. destruct (lookup_builtin neovim name) as [x|] eqn:E.
  - apply lookup_first in E. rewrite andb_true_iff, text_eqb_eq. split.
    + intros [H1 H2]. split; auto. right. exists x; auto.
    + intros [H1 [H2|[y [H2 H3]]]]. exfalso; eapply H2; eauto.
      rewrite (first_match_fun _ _ _ _ E H2). auto.
  - split.
    + intros H. split; auto. left. apply lookup_none; auto.
    + tauto.
Qed.

Lemma getn_firstn : forall s n c c2, spells s c c2 -> (n <= length s)%nat ->
  exists c', getn n c = (firstn n s, c').
Proof.
  induction s as [|r s IH]; intros n c c2 H Hn.
  - cbn in Hn. assert (n = 0%nat) by lia. subst. exists c. reflexivity.
  - destruct c as [|[|r'] p t]; cbn [spells] in H; try contradiction. destruct H as [H0 H]; subst r'.
    destruct n as [|n]. exists (Cons (R r) p t). reflexivity.
    cbn [length] in Hn. destruct (IH n t c2 H ltac:(lia)) as [c' E]. cbn [getn firstn]. rewrite E. eauto.
Qed.

Lemma read_cmd_name_spells c name c1 : read_cmd_name c = (name, c1) ->
  exists s, spells s c c1 /\ forallb (fun r => negb (iswhite r)) s = true /\ (name <> [] -> s <> []) /\
    (s = name \/ (s = T "s" /\ name = T "substitute")).
Proof.
  assert (Hal : forall s, forallb isalnum s = true -> forallb (fun r => negb (iswhite r)) s = true).
  { intros s H. rewrite forallb_forall in *. intros r Hr. apply H in Hr.
    unfold isalnum, isdigit, isalpha, isupper, islower, between, iswhite in *. lia. }
  assert (Hal2 : forall s, forallb isalpha s = true -> forallb isalnum s = true).
  { intros s H. rewrite forallb_forall in *. intros r Hr. apply H in Hr.
    unfold isalnum, isalpha, isdigit, between, isupper, islower in *. lia. }
  unfold read_cmd_name.
  destruct (o_is (peek1 c) (C "k")) eqn:E1.
  { apply o_is_peek1 in E1. destruct E1 as [p [t ->]]. cbn [getn snd]. intros H; inversion H; subst.
    exists [C "k"]. cbn. repeat split; auto; discriminate. }
  destruct (o_is (peek1 c) (C "s") && re_s_repeat (peekn 5 c)) eqn:E2.
  { apply andb_true_iff in E2. destruct E2 as [E2 _].
    apply o_is_peek1 in E2. destruct E2 as [p [t ->]]. cbn [getn snd]. intros H; inversion H; subst.
    exists [C "s"]. cbn. repeat split; auto; discriminate. }
  destruct (o_in is_special_cmd (peek1 c)) eqn:E3.
  { apply o_in_peek1 in E3. destruct E3 as [r [p [t [-> Hr]]]]. cbn [getn].
    intros H; inversion H; subst. exists [r]. cbn [spells forallb andb]. repeat split; auto.
    unfold is_special_cmd in Hr. cbn in Hr. unfold iswhite. lia. }
  destruct (text_eqb (peekn 2 c) (T "py")).
  { unfold read_alnum. intros H. apply read_while_spells in H. destruct H as [H [K _]].
    exists name. repeat split; auto. }
  unfold read_alpha. destruct (read_while isalpha c) as [nm c2] eqn:E4.
  apply read_while_spells in E4. destruct E4 as [E4 [E5 _]].
  destruct (negb (text_eqb nm (T "del")) && re_delete_lp nm) eqn:E6.
  - intros H. pose proof (getn_spells _ _ _ _ H) as Hs. exists name. repeat split; auto.
    apply Hal, Hal2.
    destruct (getn_firstn nm (length nm - 1) c c2 E4 ltac:(lia)) as [c' E7].
    rewrite E7 in H. inversion H; subst. rewrite <- (firstn_skipn (length nm - 1) nm) in E5.
    rewrite forallb_app in E5. apply andb_true_iff in E5. apply E5.
  - intros H; inversion H; subst. exists name. repeat split; auto.
Qed.
