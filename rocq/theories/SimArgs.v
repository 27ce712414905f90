(** Two runs over related texts, continued: modifiers, ranges, command names, arguments. *)
From Coq Require Import Lia ZifyBool ZifyNat ZifyN.
From Verif Require Import Base CharClass Reader Vnode Tokenizer ExprParser CmdTable CmdParser Sim SimCmd.

Section Args.
Context (neovim : bool) (opn : bool) (F F' : cursor) (h h' : pos -> pos).
Local Notation prel := (Sim.prel h h').
Local Notation sim := (Sim.sim opn F F' h h').
Local Notation sim0 := (Sim.sim0 opn F F' h h').
Local Notation orel := (Sim.orel opn F F' h h').
Local Notation vrel := (Sim.vrel h h').
Local Notation vsrel := (Sim.vsrel h h').
Local Notation vorel := (Sim.vorel h h').
Local Notation vcrel := (Sim.vcrel opn F F' h h').
Local Notation vscrel := (Sim.vscrel opn F F' h h').
Local Notation trel := (Sim.trel h h').
Local Notation tgrel := (Sim.tgrel opn F F' h h').
Local Notation earel := (SimCmd.earel h h').
Local Notation srel := (SimCmd.srel opn F F' h h').

(** Related values next to related cursors. *)
Definition wc {A} (Q : A -> A -> Prop) (a a' : A * cursor) : Prop := Q (fst a) (fst a') /\ sim (snd a) (snd a').
Lemma ok_wc {A} (Q : A -> A -> Prop) a a' c c' : Q a a' -> sim c c' -> orel (wc Q) (Ok (a, c)) (Ok (a', c')).
Proof. split; auto. Qed.

Ltac rdw f Sm s c1 c1' :=
  let Ea := fresh "Ea" in let Es := fresh "Es" in let s' := fresh "s'" in
  match type of Sm with Sim.sim _ _ _ _ _ ?c ?c' => destruct (sim_while _ _ _ _ _ f _ _ Sm) as [Ea Es];
    destruct (read_while f c) as [s c1]; destruct (read_while f c') as [s' c1']; cbn [fst snd] in Ea, Es; subst s' end.
Ltac gtn n Sm s c1 c1' :=
  let Ea := fresh "Ea" in let Es := fresh "Es" in let s' := fresh "s'" in
  match type of Sm with Sim.sim _ _ _ _ _ ?c ?c' => destruct (sim_getn _ _ _ _ _ n _ _ Sm) as [Ea Es];
    destruct (getn n c) as [s c1]; destruct (getn n c') as [s' c1']; cbn [fst snd] in Ea, Es; subst s' end.
Lemma sim_white c c' : sim c c' -> sim (skip_white c) (skip_white c').
Proof. apply sim_skip. Qed.
Lemma sim_colon c c' : sim c c' -> sim (skip_white_and_colon c) (skip_white_and_colon c').
Proof. apply sim_skip. Qed.
Lemma sim_getn_s n c c' : sim c c' -> sim (snd (getn n c)) (snd (getn n c')).
Proof. apply sim_getn. Qed.
Lemma sim_peek1_char c r : peek1 c = Some r -> chars 1 c.
Proof. destruct c as [p|[|x] p c]; cbn; try discriminate. auto. Qed.
Lemma str2nr_sim s : orel eq (str2nr s) (str2nr s).
Proof. unfold str2nr. cbv zeta. destruct (_ <=? _); [reflexivity|apply orel_panic]. Qed.

Lemma modifiers_sim n : forall n' c c', sim c c' -> orel (wc eq) (modifiers_loop n c) (modifiers_loop n' c').
Proof.
  induction n as [|n IH]; intros n' c c' Sm; [exact I|]. destruct n' as [|n']; [apply orel_oof_r|]. cbn [modifiers_loop].
  rewrite (sim_peek1 _ _ _ _ _ _ _ Sm).
  assert (A : exists d c1 c1', (if o_in isdigit (peek1 c) then let '(d, c') := read_digit c in (d, skip_white c') else ([], c)) = (d, c1) /\
     (if o_in isdigit (peek1 c) then let '(d, c'0) := read_digit c' in (d, skip_white c'0) else ([], c')) = (d, c1') /\ sim c1 c1').
  { destruct (o_in isdigit (peek1 c)); [|do 3 eexists; eauto]. unfold read_digit. rdw isdigit Sm s c1 c1'. do 3 eexists. split; [reflexivity|split; [reflexivity|]].
    apply sim_white; auto. }
  destruct A as [d [c1 [c1' [-> [-> S1]]]]]. unfold read_alpha. rdw isalpha S1 k c2 c2'. rewrite (sim_peek1 _ _ _ _ _ _ _ Es).
  pose proof (sim_white _ _ Es) as S3. cbv zeta.
  destruct (find_modifier modifier_table k) as [name|]; [|apply ok_wc; auto]. destruct (_ && _); [apply ok_wc; auto|].
  eapply orel_bind with (Q := wc eq).
  - destruct (text_eqb name _). destruct (o_is (peek1 c2) _) eqn:E.
    + apply ok_wc; auto. destruct c2 as [p|[|x] p d2]; cbn in E; try discriminate. cbn in E.
      assert (iswhite x = false) as W by (apply N.eqb_eq in E; subst; reflexivity).
      unfold skip_white, skip_while in *. cbn [read_while] in *. inversion Es; subst. cbn [read_while] in *. rewrite W in *. cbn [snd get]. auto.
    + apply ok_wc; auto.
    + destruct (text_eqb name _). destruct (is_nil d); [apply ok_wc; auto|]. eapply orel_bind; [apply str2nr_sim|]. intros z z' <-. apply ok_wc; auto.
      destruct (text_eqb name _); [|apply ok_wc; auto]. destruct (is_nil d); [apply ok_wc; auto|]. eapply orel_bind; [apply str2nr_sim|]. intros z z' <-. apply ok_wc; auto.
  - intros [m c4] [m' c4'] [E S4]. cbn [fst snd] in *. subst m'. eapply orel_bind; [apply IH, S4|]. intros [ms c5] [ms' c5'] [E S5]. cbn [fst snd] in *. subst ms'.
    apply ok_wc; auto.
Qed.

Lemma pattern_sim d : forall n i c c', (clen c <= n)%nat -> sim c c' -> orel (wc eq) (pattern_loop d i c) (pattern_loop d i c').
Proof.
  induction n as [|n IH]; intros i c c' L Sm; destruct Sm as [p p' O P|p p' O P|x p p' c c' P Sm]; cbn [clen] in L; try lia; cbn [pattern_loop];
    try (apply ok_wc; [reflexivity|constructor; auto]; fail).
  destruct x as [|r]; [apply ok_wc; [reflexivity|constructor; auto]|]. destruct (_ && _); [apply ok_wc; auto|].
  destruct (r =? 92).
  - destruct Sm as [q q' O Q|q q' O Q|y q q' c c' Q Sm]; try (apply orel_raise; auto; fail). destruct y as [|r2]; [apply orel_raise; auto|].
    cbn [clen] in L. eapply orel_bind; [apply IH; [lia|exact Sm]|]. intros [[s e] c1] [[s' e'] c1'] [E S1]. cbn [fst snd] in *. injection E as <- <-. apply ok_wc; auto.
  - eapply orel_bind; [apply IH; [lia|exact Sm]|]. intros [[s e] c1] [[s' e'] c1'] [E S1]. cbn [fst snd] in *. injection E as <- <-. apply ok_wc; auto.
Qed.
Lemma parse_pattern_sim d c c' : sim c c' -> orel (wc eq) (parse_pattern d c) (parse_pattern d c').
Proof. intros. eapply pattern_sim; eauto. Qed.

Lemma read_integer_sim c c' : sim c c' -> fst (read_integer c') = fst (read_integer c) /\ sim (snd (read_integer c)) (snd (read_integer c')).
Proof.
  intros Sm. unfold read_integer. rewrite (sim_peek1 _ _ _ _ _ _ _ Sm). destruct (o_in _ _); unfold read_digit.
  - gtn 1%nat Sm s c1 c1'. rdw isdigit Es s2 c2 c2'. cbn [fst snd]. auto.
  - rdw isdigit Sm s2 c2 c2'. cbn [fst snd app]. auto.
Qed.
Lemma range_ints_sim n : forall n' c c', sim c c' -> orel (wc eq) (range_ints n c) (range_ints n' c').
Proof.
  induction n as [|n IH]; intros n' c c' Sm; [exact I|]. destruct n' as [|n']; [apply orel_oof_r|]. cbn [range_ints]. cbv zeta.
  pose proof (sim_white _ _ Sm) as S1. rewrite (sim_peek1 _ _ _ _ _ _ _ S1). destruct (peek1 (skip_white c)); [|apply ok_wc; auto].
  destruct (read_integer_sim _ _ S1) as [Ea Es]. destruct (read_integer (skip_white c)) as [s c1], (read_integer (skip_white c')) as [s' c1']. cbn [fst snd] in *. subst s'.
  destruct (is_nil s); [apply ok_wc; auto|]. eapply orel_bind; [apply IH, Es|]. intros [ss c2] [ss' c2'] [E S2]. cbn [fst snd] in *. subst. apply ok_wc; auto.
Qed.
Lemma range_spec_sim r c c' : sim c c' -> peek1 c = Some r -> orel (wc eq) (range_spec r c) (range_spec r c').
Proof.
  intros Sm Hr. unfold range_spec. destruct (_ || _). { gtn 1%nat Sm s c1 c1'. apply ok_wc; auto. }
  destruct (r =? C "'"). { cbv zeta. pose proof (sim_getn_s 1 _ _ Sm) as S1. gtn 1%nat S1 m c2 c2'. destruct (is_nil m); apply ok_wc; auto. }
  destruct (_ || _). { cbv zeta. pose proof (sim_getn_s 1 _ _ Sm) as S1. eapply orel_bind; [apply parse_pattern_sim, S1|].
    intros [[s e] c1] [[s' e'] c1'] [E S2]. cbn [fst snd] in *. injection E as <- <-. apply ok_wc; auto. }
  destruct (r =? 92).
  { eapply orel_p; [eassumption|eapply sim_peek1_char; eauto|]. intros x X _. destruct (_ || _) eqn:E; [|apply orel_raise; eapply sim_pos; eauto].
    eapply orel_seek; [eassumption|apply orb_prop in E; destruct E as [E|E]; [apply orb_prop in E; destruct E|]; eauto|]. intros d d' D. apply ok_wc; auto. }
  destruct (isdigit r); [|apply ok_wc; auto]. unfold read_digit. rdw isdigit Sm s c1 c1'. apply ok_wc; auto.
Qed.
Lemma range_inner_sim n : forall n' c c', sim c c' -> orel (wc eq) (range_inner n c) (range_inner n' c').
Proof.
  induction n as [|n IH]; intros n' c c' Sm; [exact I|]. destruct n' as [|n']; [apply orel_oof_r|]. cbn [range_inner]. cbv zeta.
  pose proof (sim_white _ _ Sm) as S1. rewrite (sim_peek1 _ _ _ _ _ _ _ S1). destruct (peek1 (skip_white c)) as [r|] eqn:Er; [|apply ok_wc; auto].
  eapply orel_bind; [apply range_spec_sim; eauto|]. intros [[ts go] c1] [[ts' go'] c1'] [E S2]. cbn [fst snd] in *. injection E as <- <-.
  destruct (negb go); [apply ok_wc; auto|]. eapply orel_bind; [apply range_ints_sim, S2|]. intros [is c2] [is' c2'] [E S3]. cbn [fst snd] in *. subst is'.
  eapply orel_p; [eassumption|exact I|]. intros x _ _. destruct (_ || _); [|apply ok_wc; auto].
  eapply orel_bind; [apply IH, S3|]. intros [m c3] [m' c3'] [E S4]. cbn [fst snd] in *. subst. apply ok_wc; auto.
Qed.
Lemma range_loop_sim n : forall n' c c', sim c c' -> orel (wc eq) (range_loop n c) (range_loop n' c').
Proof.
  induction n as [|n IH]; intros n' c c' Sm; [exact I|]. destruct n' as [|n']; [apply orel_oof_r|]. cbn [range_loop].
  eapply orel_bind; [apply range_inner_sim, Sm|]. intros [ts c1] [ts' c1'] [E S1]. cbn [fst snd] in *. subst ts'.
  rewrite (sim_peek1 _ _ _ _ _ _ _ S1).
  assert (A : exists t2 c2 c2', (if o_in (fun r => (r =? C "%") || (r =? C "*")) (peek1 c1) then let '(s, c') := getn 1 c1 in ([s], c') else ([], c1)) = (t2, c2) /\
     (if o_in (fun r => (r =? C "%") || (r =? C "*")) (peek1 c1) then let '(s, c') := getn 1 c1' in ([s], c') else ([], c1')) = (t2, c2') /\ sim c2 c2').
  { destruct (o_in _ (peek1 c1)); [|do 3 eexists; eauto]. gtn 1%nat S1 s c2 c2'. do 3 eexists; eauto. }
  destruct A as [t2 [c2 [c2' [-> [-> S2]]]]]. rewrite (sim_peek1 _ _ _ _ _ _ _ S2). destruct (o_in _ (peek1 c2)); [|apply ok_wc; auto].
  gtn 1%nat S2 s c3 c3'. eapply orel_bind; [apply IH, Es|]. intros [m c4] [m' c4'] [E S4]. cbn [fst snd] in *. subst. apply ok_wc; auto.
Qed.

Lemma read_name_sim c c' : sim c c' -> fst (read_cmd_name c') = fst (read_cmd_name c) /\ sim (snd (read_cmd_name c)) (snd (read_cmd_name c')).
Proof.
  intros Sm. unfold read_cmd_name. rewrite (sim_peek1 _ _ _ _ _ _ _ Sm), !(sim_peekn _ _ _ _ _ _ _ _ Sm).
  destruct (o_is _ _). { gtn 1%nat Sm s c1 c1'. cbn. auto. }
  destruct (_ && _). { gtn 1%nat Sm s c1 c1'. cbn. auto. }
  destruct (o_in _ _). { gtn 1%nat Sm s c1 c1'. cbn. auto. }
  destruct (text_eqb _ _). { unfold read_alnum. rdw isalnum Sm s c1 c1'. cbn. auto. }
  unfold read_alpha. rdw isalpha Sm s c1 c1'. destruct (_ && _); [|cbn; auto]. gtn (length s - 1)%nat Sm s2 c2 c2'. cbn. auto.
Qed.
Lemma find_command_sim st st' : srel st st' -> fst (find_command neovim st') = fst (find_command neovim st) /\ srel (snd (find_command neovim st)) (snd (find_command neovim st')).
Proof.
  intros [Sm [X Ec]]. unfold find_command. destruct (read_name_sim _ _ Sm) as [Ea Es]. destruct (read_cmd_name (cur st)) as [s c1], (read_cmd_name (cur st')) as [s' c1'].
  cbn [fst snd] in *. subst s'. assert (K : srel (with_cur c1 st) (with_cur c1' st')) by (split; [|split]; auto).
  destruct (is_nil s); [auto|]. rewrite <- Ec. destruct (assoc_text s (cache st)); [auto|].
  destruct (match lookup_builtin neovim s with Some x => _ | None => _ end).
  - unfold read_alnum. rdw isalnum Es s2 c2 c2'. cbn [fst snd]. split; auto. split; [|split]; cbn; auto; congruence.
  - cbn [fst snd]. split; auto. split; [|split]; cbn; auto; congruence.
Qed.

Lemma argopt_sim n : forall n' e e' c c', earel e e' -> sim c c' -> orel (wc earel) (argopt_loop n e c) (argopt_loop n' e' c').
Proof.
  induction n as [|n IH]; intros n' e e' c c' Q Sm; [exact I|]. destruct n' as [|n']; [apply orel_oof_r|]. cbn [argopt_loop].
  eapply orel_bind; [eapply orel_p_match; [exact Sm|exact I]|]. cbv beta. intros b b' [<- _]. destruct (negb b); [apply ok_wc; auto|].
  cbv zeta. rewrite (sim_peekn _ _ _ _ _ _ _ _ Sm). eapply orel_bind with (Q := wc earel).
  - assert (Gn : forall k, sim (snd (getn k c)) (snd (getn k c'))) by (intros; apply sim_getn_s; auto).
    destruct (re_lit_b _ _). { apply ok_wc; auto. apply ea_bin_rel; auto. }
    destruct (re_lit_b _ _). { apply ok_wc; auto. apply ea_bin_rel; auto. }
    destruct (re_lit_b _ _). { apply ok_wc; auto. apply ea_edit_rel; auto. }
    unfold read_alpha, read_nonwhite.
    destruct (re_lit_ff _ _). { specialize (Gn 5%nat). rdw isalpha Gn s c1 c1'. apply ok_wc; auto. apply ea_ff_rel; auto. }
    destruct (re_lit_ff _ _). { specialize (Gn 13%nat). rdw isalpha Gn s c1 c1'. apply ok_wc; auto. apply ea_ff_rel; auto. }
    destruct (re_lit_S _ _). { specialize (Gn 6%nat). rdw (fun r => negb (iswhite r)) Gn s c1 c1'. apply ok_wc; auto. apply ea_enc_rel; auto. }
    destruct (re_lit_S _ _). { specialize (Gn 11%nat). rdw (fun r => negb (iswhite r)) Gn s c1 c1'. apply ok_wc; auto. apply ea_enc_rel; auto. }
    destruct (re_bad _). { specialize (Gn 6%nat). match goal with |- context [if ?b then 4%nat else 1%nat] => gtn (if b then 4%nat else 1%nat) Gn s c1 c1' end. apply ok_wc; auto. apply ea_bad_rel; auto. }
    apply orel_raise. eapply sim_pos; eauto.
  - intros [e1 c1] [e1' c1'] [Q1 S1]. cbn [fst snd] in *. apply IH; auto. apply sim_white; auto.
Qed.
Lemma read_cmdarg_sim : forall n c c', (clen c <= n)%nat -> sim c c' -> fst (read_cmdarg c') = fst (read_cmdarg c) /\ sim (snd (read_cmdarg c)) (snd (read_cmdarg c')).
Proof.
  induction n as [|n IH]; intros c c' L Sm; destruct Sm as [p p' O P|p p' O P|x p p' c c' P Sm]; cbn [clen] in L; try lia; cbn [read_cmdarg];
    try (cbn; split; [reflexivity|constructor; auto]; fail).
  destruct x as [|r]; [cbn; split; [reflexivity|constructor; auto]|]. destruct (iswhite r); [cbn; split; [reflexivity|constructor; auto]|]. destruct (r =? 92).
  - destruct Sm as [q q' O Q|q q' O Q|y q q' c c' Q Sm]; try (cbn; split; [reflexivity|constructor; auto]; fail).
    destruct y as [|r2]; [cbn; split; [reflexivity|constructor; auto]|]. cbn [clen] in L. destruct (IH c c') as [Ea Es]; [lia|auto|].
    destruct (read_cmdarg c), (read_cmdarg c'). cbn [fst snd] in *. subst. auto.
  - destruct (IH c c') as [Ea Es]; [lia|auto|]. destruct (read_cmdarg c), (read_cmdarg c'). cbn [fst snd] in *. subst. auto.
Qed.
Lemma argcmd_sim e e' c c' : earel e e' -> sim c c' -> wc earel (parse_argcmd e c) (parse_argcmd e' c').
Proof.
  intros Q Sm. unfold parse_argcmd. rewrite (sim_peek1 _ _ _ _ _ _ _ Sm). destruct (o_is _ _); [|split; auto]. cbv zeta.
  pose proof (sim_getn_s 1 _ _ Sm) as S1. rewrite (sim_peek1 _ _ _ _ _ _ _ S1). destruct (o_is _ _). { split; auto. apply ea_ecmd_rel; auto. }
  destruct (read_cmdarg_sim _ _ _ (le_n _) S1) as [Ea Es]. destruct (read_cmdarg (snd (getn 1 c))), (read_cmdarg (snd (getn 1 c'))). cbn [fst snd] in *. subst.
  split; auto. apply ea_ecmd_rel; auto.
Qed.
Lemma write_args_sim s p p' e e' c c' : prel p p' -> earel e e' -> sim c c' -> orel (wc earel) (write_args s p e c) (write_args s p' e' c').
Proof.
  intros P Q Sm. unfold write_args. destruct (_ || _); [|apply ok_wc; auto]. eapply orel_p; [eassumption|exact I|]. intros x X _. destruct (ch_is x _) eqn:E.
  - eapply orel_p; [eassumption|eauto|]. intros y Y _. destruct (ch_is y _) eqn:E2; cbn [negb]; [|apply orel_raise; auto]. eapply orel_seek; [eassumption|eauto|]. intros d d' D.
    apply ok_wc. apply ea_append_rel; auto. apply sim_white; auto.
  - rewrite (sim_peek1 _ _ _ _ _ _ _ Sm). destruct (_ && _); [|apply ok_wc; auto]. rewrite (proj1 (ea_fields _ _ _ _ Q)). apply ok_wc. apply ea_filter_rel; auto. apply sim_getn_s; auto.
Qed.
Lemma read_args_sim s e e' c c' : earel e e' -> sim c c' -> wc earel (read_args s e c) (read_args s e' c').
Proof.
  intros Q Sm. unfold read_args. destruct (text_eqb _ _); [|split; auto]. rewrite (proj1 (ea_fields _ _ _ _ Q)), (sim_peek1 _ _ _ _ _ _ _ Sm). destruct (ea_forceit e). split; auto. apply ea_filter_rel; auto.
  destruct (o_is _ _); [|split; auto]. split. apply ea_filter_rel; auto. apply sim_getn_s; auto.
Qed.
Lemma shift_args_sim s e e' c c' : earel e e' -> sim c c' -> wc earel (shift_args s e c) (shift_args s e' c').
Proof.
  intros Q Sm. unfold shift_args. destruct s as [|r [|]]; try (split; auto; fail). destruct (_ || _); [|split; auto].
  rdw (fun x => x =? r) Sm s c1 c1'. split. apply ea_amount_rel; auto. apply sim_white; auto.
Qed.

Lemma skip_vimgrep_sim c c' : sim c c' -> orel sim (skip_vimgrep_pat c) (skip_vimgrep_pat c').
Proof.
  intros Sm. unfold skip_vimgrep_pat. rewrite (sim_peek1 _ _ _ _ _ _ _ Sm). destruct (peek1 c); [|auto]. destruct (iswordc n).
  { unfold read_nonwhite. rdw (fun r => negb (iswhite r)) Sm s c1 c1'. cbn. auto. }
  eapply orel_bind; [apply parse_pattern_sim, sim_getn_s, Sm|]. intros [[s e] c1] [[s' e'] c1'] [E S2]. cbn [fst snd] in *. injection E as <- <-.
  destruct (negb e); [auto|]. apply sim_skip; auto.
Qed.

(** Indices in the two texts are shifted by the same amount. *)
Context (Hidx : forall p p' q q', prel p p' -> prel q q' -> (p_i p' =? p_i q' + 1) = (p_i p =? p_i q + 1)).

Definition rel3 (a a' : cursor * cursor * cursor) : Prop := sim (fst (fst a)) (fst (fst a')) /\ sim (snd (fst a)) (snd (fst a')) /\ sim (snd a) (snd a').
Lemma sep_sim n x q q' : prel q q' -> forall n' pc d d' c c', sim d d' -> sim c c' -> orel rel3 (sep_loop n x (p_i q) pc d c) (sep_loop n' x (p_i q') pc d' c').
Proof.
  intros Pq. induction n as [|n IH]; intros n' pc d d' c c' Sd Sm; [exact I|]. destruct n' as [|n']; [apply orel_oof_r|]. cbn [sep_loop]. cbv zeta.
  pose proof (sim_pos _ _ _ _ _ _ _ Sm) as P. rewrite (sim_peek _ _ _ _ _ _ _ Sm), (sim_peekn _ _ _ _ _ _ _ _ Sm), (Hidx _ _ _ _ P Pq).
  assert (Sn : sim (if o_in iswhite pc then d else c) (if o_in iswhite pc then d' else c')) by (destruct (o_in _ _); auto).
  assert (Z : orel rel3 (Ok (c, if o_in iswhite pc then d else c, c)) (Ok (c', if o_in iswhite pc then d' else c', c'))) by (split; [|split]; auto).
  destruct (peek c) as [| |r] eqn:Ep; [exact Z|exact Z|]. pose proof (sim_get_char _ _ _ _ _ _ _ _ Sm Ep) as S1.
  destruct (r =? 22).
  { rewrite (sim_peek _ _ _ _ _ _ _ S1). destruct (peek (snd (get c))) as [| |r2] eqn:E2; try (split; [|split]; auto; fail).
    apply IH; auto. eapply sim_get_char; eauto. }
  destruct (_ && _).
  { eapply orel_bind; [apply parse_expr_sim, sim_getn_s, Sm|]. intros [v c2] [v' c2'] [V S2]. cbn [fst snd] in *. rewrite (sim_peek1 _ _ _ _ _ _ _ S2).
    destruct (negb _). apply orel_raise. eapply sim_pos; eauto. apply IH; auto. apply sim_getn_s; auto. }
  destruct (_ || _); [|apply IH; auto]. destruct (o_is pc 92); [apply IH; auto|exact Z].
Qed.
Lemma separate_sim x q q' c c' : prel q q' -> sim c c' -> orel (wc sim) (separate_nextcmd x (p_i q) c) (separate_nextcmd x (p_i q') c').
Proof.
  intros P Sm. unfold separate_nextcmd. eapply orel_bind with (Q := sim). destruct (is_vimgrep _); [apply skip_vimgrep_sim; auto|auto].
  intros d d' D. eapply orel_bind; [eapply sep_sim; eauto|]. intros [[e ns] c1] [[e' ns'] c1'] [A [B G]]. cbn [fst snd] in *. apply ok_wc; auto. destruct (has_flag _ _); auto.
Qed.
End Args.
