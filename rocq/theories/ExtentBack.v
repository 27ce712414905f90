(** The converse of [ExtentProof]: the functions that read a command as text keep what
    [Extent] says. *)
From Coq Require Import Lia ZifyBool ZifyNat ZifyN.
From Verif Require Import Base CharClass Reader Vnode Token Tokenizer ExprParser Cursor Grammar TokSafe Ast Export Join JoinProof Head HeadProof Script Extent CmdSpec
  ExtentProof Written WrittenProof Lookahead WrittenBrace PrintBack CmdTable CmdParser CmdBase CmdArgs OneLine WrittenScript TargetProof ArgsProof StmtShow FindBack LineProof ListingBack NodeHead HeadBack.

(** * Expressions in backquotes *)

Lemma sticks_tick n : sticks n (C "`") = false.
Proof.
  destruct n; try reflexivity; cbn [sticks];
    [destruct kind; try reflexivity; cbn; rewrite ?andb_false_r; reflexivity|cbn; rewrite andb_false_r; reflexivity].
Qed.
Lemma tick_stop n p t : stop false n 1 (Cons (R (C "`")) p t).
Proof.
  split; [discriminate|]. split; [cbn [peek ch_of_cell fits]; rewrite sticks_tick; reflexivity|].
  do 2 eexists. split; [reflexivity|]. cbn [tk lev]. lia.
Qed.
Lemma tick_read e c k p t : backquote_expression e -> spells e c k -> k = Cons (R (C "`")) p t -> wf c ->
  exists v, parse_expr c = Ok (v, k).
Proof.
  intros [w [n [u [Hw [Hn ->]]]]] Sp Hk Wf. destruct (read_expr false n u w c k Hn Hw Sp Wf) as [v [E _]]; [|eauto].
  subst k. apply tick_stop.
Qed.

(** * The argument of a command *)

Section Sep.
Context (x : cmd) (argi : N) (c0 : cursor) (W0 : wf c0) (Hargi : c_name x = T "redir" -> argi = p_i (getpos c0)).

Definition stop_test (pc : option N) (r : N) (c : cursor) : bool :=
  (r =? C "|") || (r =? 10) || ((r =? C """") && negb (has_flag (T "NOTRLCOM") x) &&
     (negb (text_eqb (c_name x) (T "redir")) || negb (p_i (getpos c) =? argi + 1) || negb (o_is pc (C "@")))).

Lemma escaped pc done : ends_with pc done -> (o_is pc 92 = true <-> exists s, done = s ++ [92]).
Proof.
  intros Hpc. destruct pc as [q|]; cbn [o_is ends_with] in *; split.
  - intros E. apply N.eqb_eq in E. subst q. exact Hpc.
  - intros [s E]. destruct Hpc as [s2 E2]. rewrite E2 in E. apply app_inj_tail in E. apply N.eqb_eq. tauto.
  - discriminate.
  - intros [s E]. subst done. destruct s; discriminate.
Qed.
Lemma stop_iff pc done r p t Y : spells done c0 (Cons (R r) p t) -> ends_with pc done ->
  (stop_test pc r (Cons (R r) p t) && negb (o_is pc 92) = true <-> Extent.ended x done (r :: Y)).
Proof.
  intros Hd Hpc.
  assert (Hlen : p_i (getpos (Cons (R r) p t)) = p_i (getpos c0) + N.of_nat (length done)) by (apply spells_number; auto).
  pose proof (escaped pc done Hpc) as Hesc.
  assert (Hredir : (negb (text_eqb (c_name x) (T "redir")) || negb (p_i (getpos (Cons (R r) p t)) =? argi + 1) ||
                negb (o_is pc (C "@"))) = false <-> c_name x = T "redir" /\ done = T "@").
  { rewrite !orb_false_iff, !negb_false_iff, text_eqb_eq, N.eqb_eq. rewrite Hlen. split.
    - intros [[K1 K2] K3]. split; [exact K1|]. rewrite (Hargi K1) in K2.
      assert (K4 : length done = 1%nat) by lia. destruct done as [|q [|? ?]]; try discriminate K4.
      destruct pc as [q'|]; [|discriminate]. cbn in Hpc, K3. destruct Hpc as [s E].
      destruct s as [|? [|? ?]]; inversion E; subst. apply N.eqb_eq in K3. subst. reflexivity.
    - intros [K1 K2]. subst done. split; [split; [exact K1|]|]. rewrite (Hargi K1). cbn [length]. lia.
      destruct pc as [q'|]; cbn in Hpc; [|discriminate]. destruct Hpc as [s E].
      destruct s as [|? [|? ?]]; inversion E; subst. reflexivity. }
  rewrite andb_true_iff, negb_true_iff. split.
  - intros [Estop E92]. right. split.
    { intros K. apply Hesc in K. congruence. }
    unfold stop_test in Estop. apply orb_true_iff in Estop. destruct Estop as [Estop|Estop].
    + apply orb_true_iff in Estop. destruct Estop as [E|E]; apply N.eqb_eq in E; subst r.
      left. exists Y. reflexivity. right. left. exists Y. reflexivity.
    + right. right. apply andb_true_iff in Estop. destruct Estop as [Estop K].
      apply andb_true_iff in Estop. destruct Estop as [K1 K2]. apply N.eqb_eq in K1. subst r.
      split; [exists Y; reflexivity|]. split. apply negb_true_iff in K2. exact K2.
      intros K3. apply Hredir in K3. congruence.
  - intros [E|[K H]]; [discriminate|]. split.
    + unfold stop_test. destruct H as [[z E]|[[z E]|[[z E] [E2 E3]]]]; inversion E; subst; [reflexivity|reflexivity|].
      change (C """" =? C """") with true. unfold has_flag. unfold flag in E2. rewrite E2. cbn [negb andb].
      match goal with |- _ || ?b = true => destruct b eqn:Eb; [apply orb_true_r|exfalso; apply E3; apply Hredir; reflexivity] end.
    + destruct (o_is pc 92) eqn:E; auto. exfalso. apply K. apply Hesc. reflexivity.
Qed.
Lemma tick_iff c Y : rest_of c Y -> (text_eqb (peekn 2 c) (T "`=") && takes_files x = true <-> backquoted x Y).
Proof.
  intros HY. rewrite andb_true_iff, text_eqb_eq, (peekn_rest 2 _ _ HY). unfold backquoted, file_names, takes_files, flag, has_flag.
  rewrite !orb_true_iff. split.
  - intros [E F]. split; [tauto|]. exists (skipn 2 Y). rewrite <- E. symmetry. apply firstn_skipn.
  - intros [F [Y' ->]]. split; [reflexivity|tauto].
Qed.

Definition parted (ns c1 : cursor) (done : text) : Prop :=
  exists u v, done = u ++ v /\ spells u c0 ns /\ spells v ns c1 /\ all_white v /\ not_white_end u.

Lemma sep_back rest done0 s0 : argument backquote_expression x rest done0 s0 ->
  forall n pc nosp c, spells done0 c0 c -> ends_with pc done0 -> (clen c < n)%nat -> rest_of c (s0 ++ rest) ->
  (o_in iswhite pc = true -> parted nosp c done0) ->
  exists ns c1, sep_loop n x argi pc nosp c = Ok (c1, ns, c1) /\ rest_of c1 rest /\ parted ns c1 (done0 ++ s0).
Proof.
  assert (Hnosp : forall pc nosp c done, spells done c0 c -> ends_with pc done -> (o_in iswhite pc = true -> parted nosp c done) ->
    parted (if o_in iswhite pc then nosp else c) c done).
  { intros pc nosp c done Hd Hpc Hs. destruct (o_in iswhite pc) eqn:Ew; [auto|]. exists done, []. rewrite app_nil_r.
    repeat (split; [first [reflexivity|assumption|intros ? []]|]).
    destruct pc as [r|]; cbn [ends_with] in Hpc.
    - destruct Hpc as [u ->]. apply not_white_char. exact Ew.
    - subst done. apply not_white_nil. }
  assert (Hnext : forall nosp p t done r, spells done c0 (Cons (R r) p t) -> parted nosp (Cons (R r) p t) done ->
    o_in iswhite (Some r) = true -> parted nosp t (done ++ [r])).
  { intros nosp p t done r Hd [u [v [E [Su [Sv [Hv Hu]]]]]] Hr. exists u, (v ++ [r]). rewrite E, app_assoc.
    split; [reflexivity|]. split; [exact Su|]. split. eapply spells_app; [exact Sv|cbn; auto]. split; [|exact Hu].
    intros y Hy. apply in_app_or in Hy. destruct Hy as [Hy|[<-|[]]]; auto. apply white_or; auto. }
  induction 1 as [done He|done r s Ha IH|done He|done e s Hf Hex Ha IH|done r s Hr Hb Hne Ha IH]; intros n pc nosp c Hd Hpc Hn Hrs Hs;
    (destruct n as [|n]; [lia|]); cbn [sep_loop]; pose proof (Hnosp _ _ _ _ Hd Hpc Hs) as Hs1.
  - (* end *) cbn [app] in Hrs. rewrite app_nil_r. set (nosp1 := if o_in iswhite pc then nosp else c) in *. exists nosp1, c. split; [|auto].
    destruct rest as [|r rest].
    + apply rest_nil_end in Hrs. unfold at_end in Hrs. destruct c as [|[|? ] ? ?]; try discriminate; reflexivity.
    + destruct (rest_cons _ _ _ Hrs) as [p [t [-> Hr']]]. cbn [peek ch_of_cell].
      pose proof (proj2 (stop_iff pc done r p t rest Hd Hpc) He) as K. apply andb_true_iff in K. destruct K as [K1 K2]. apply negb_true_iff in K2.
      assert (K22 : r =? 22 = false).
      { destruct He as [E|[_ [[z E]|[[z E]|[[z E] _]]]]]; inversion E; subst; reflexivity. }
      rewrite K22.
      assert (Kt : text_eqb (peekn 2 (Cons (R r) p t)) (T "`=") && takes_files x = false).
      { match goal with |- ?b = false => destruct b eqn:Eb; auto end. apply (tick_iff _ _ Hrs) in Eb. destruct Eb as [_ [Y E]]. inversion E; subst r.
        destruct He as [E1|[_ [[z E1]|[[z E1]|[[z E1] _]]]]]; inversion E1. }
      rewrite Kt. fold (stop_test pc r (Cons (R r) p t)). rewrite K1, K2. reflexivity.
  - (* quoted *) cbn [app] in Hrs. destruct (rest_cons _ _ _ Hrs) as [p [t [-> Hr1]]]. destruct (rest_cons _ _ _ Hr1) as [p2 [t2 [-> Hr2]]].
    cbn [peek ch_of_cell get snd]. change (22 =? 22) with true. cbv iota.
    replace (done ++ 22 :: r :: s) with ((done ++ [22; r]) ++ s) by (rewrite <- app_assoc; reflexivity).
    apply IH; auto.
    + eapply spells_app; [exact Hd|]. cbn. auto.
    + exists (done ++ [22]). rewrite <- app_assoc. reflexivity.
    + cbn [clen] in Hn. lia.
    + cbn [o_in]. intros Hw. exists (done ++ [22]), [r]. rewrite <- app_assoc. split; [reflexivity|].
      split; [eapply spells_app; [exact Hd|cbn; auto]|]. split; [cbn; auto|]. split.
      intros y [<-|[]]. apply white_or; auto. apply not_white_char. reflexivity.
  - (* quote at the end *) subst rest. cbn [app] in Hrs. destruct (rest_cons _ _ _ Hrs) as [p [t [-> Hr1]]].
    cbn [peek ch_of_cell get snd]. change (22 =? 22) with true. cbv iota. exists t, t. split.
    { apply rest_nil_end in Hr1. unfold at_end in Hr1. destruct t as [|[|? ] ? ?]; try discriminate; reflexivity. }
    split; [exact Hr1|]. exists (done ++ [22]), []. rewrite app_nil_r. split; [reflexivity|]. split; [eapply spells_app; [exact Hd|cbn; auto]|].
    split; [reflexivity|]. split; [intros ? []|]. apply not_white_char. reflexivity.
  - (* expression *) rewrite <- !app_assoc in Hrs. cbn [app] in Hrs.
    assert (Hb : backquoted x (T "`=" ++ e ++ T "`" ++ s ++ rest)) by (split; [exact Hf|eexists; reflexivity]).
    destruct (rest_split (T "`=") c _ Hrs) as [c2 [S2 R2]]. destruct (rest_split e c2 _ R2) as [c3 [S3 R3]].
    destruct (rest_cons _ _ _ R3) as [p4 [t4 [E4 R4]]]. 
    assert (Hwc : wf c) by (eapply spells_wf'; eauto). assert (Hw2 : wf c2) by (eapply spells_wf'; eauto).
    destruct (tick_read e c2 c3 p4 t4 Hex S3 E4 Hw2) as [v Ev].
    pose proof (proj2 (tick_iff c _ Hrs) Hb) as Kt.
    destruct (rest_cons _ _ _ Hrs) as [p0 [t0 [Ec _]]].
    assert (Eg : snd (getn 2 c) = c2). { pose proof (getn_exact 2 (T "`=") c c2 S2 eq_refl) as G. rewrite G. reflexivity. }
    pose proof (spells_clen _ _ _ S2) as L2. pose proof (spells_clen _ _ _ S3) as L3. cbn [length] in L2.
    assert (E : sep_loop (S n) x argi pc nosp c = sep_loop n x argi (Some (C "`")) (if o_in iswhite pc then nosp else c) t4).
    { cbn [sep_loop]. replace (peek c) with (CR (C "`")) by (rewrite Ec; reflexivity). change (C "`" =? 22) with false. cbv iota. rewrite Kt, Eg, Ev. cbn [bind].
      rewrite E4. reflexivity. }
    cbn [sep_loop] in E. rewrite E. clear E.
    replace (done ++ T "`=" ++ e ++ T "`" ++ s) with ((done ++ T "`=" ++ e ++ T "`") ++ s) by (rewrite <- !app_assoc; reflexivity).
    apply IH; auto.
    + eapply spells_app; [exact Hd|]. eapply spells_app; [exact S2|]. eapply spells_app; [exact S3|]. rewrite E4. cbn. auto.
    + exists (done ++ T "`=" ++ e). rewrite <- !app_assoc. reflexivity.
    + rewrite E4 in L3. cbn [clen] in L3. lia.
    + discriminate.
  - (* a character *) cbn [app] in Hrs. destruct (rest_cons _ _ _ Hrs) as [p [t [-> Hr1]]]. cbn [peek ch_of_cell get snd].
    replace (r =? 22) with false by lia.
    replace (text_eqb (peekn 2 (Cons (R r) p t)) (T "`=") && takes_files x) with false
      by (symmetry; match goal with |- ?b = false => destruct b eqn:Eb; auto end; exfalso; apply Hb; apply (tick_iff _ _ Hrs); exact Eb).
    fold (stop_test pc r (Cons (R r) p t)).
    assert (K : stop_test pc r (Cons (R r) p t) && negb (o_is pc 92) = false).
    { match goal with |- ?b = false => destruct b eqn:Eb; auto end. exfalso. apply Hne. apply (stop_iff pc done r p t _ Hd Hpc). exact Eb. }
    replace (done ++ r :: s) with ((done ++ [r]) ++ s) by (rewrite <- app_assoc; reflexivity).
    set (nosp1 := if o_in iswhite pc then nosp else Cons (R r) p t) in *.
    assert (G : exists ns c1, sep_loop n x argi (Some r) nosp1 t = Ok (c1, ns, c1) /\ rest_of c1 rest /\ parted ns c1 ((done ++ [r]) ++ s)).
    { apply IH; auto.
      - eapply spells_app; [exact Hd|cbn; auto].
      - cbn. eauto.
      - cbn [clen] in Hn. lia.
      - intros Hw. eapply Hnext; eauto. }
    destruct (stop_test pc r (Cons (R r) p t)); [|exact G]. cbn [andb] in K. apply negb_false_iff in K. rewrite K. exact G.
Qed.
End Sep.

Lemma iswhite_or r : r = 32 \/ r = 9 -> iswhite r = true.
Proof. intros [->| ->]; reflexivity. Qed.

(** Blanks at the end of a text are told apart in one way. *)
Lemma white_end_unique s w u v : s ++ w = u ++ v -> all_white w -> not_white_end s -> all_white v -> not_white_end u -> s = u /\ w = v.
Proof.
  revert u. induction s as [|a s IH]; intros u E Hw Hs Hv Hu; destruct u as [|b u]; cbn [app] in E.
  - auto.
  - exfalso. apply Hu. subst w. destruct (exists_last (l := b :: u) ltac:(discriminate)) as [y [r Ey]]. exists y, r. split; auto.
    apply iswhite_or. apply Hw. change (b :: u ++ v) with ((b :: u) ++ v). rewrite Ey. apply in_or_app. left. apply in_or_app. right. left. reflexivity.
  - exfalso. apply Hs. subst v. destruct (exists_last (l := a :: s) ltac:(discriminate)) as [y [r Ey]]. exists y, r. split; auto.
    apply iswhite_or. apply Hv. change (a :: s ++ w) with ((a :: s) ++ w). rewrite Ey. apply in_or_app. left. apply in_or_app. right. left. reflexivity.
  - injection E as -> E. destruct (IH u E Hw) as [-> ->]; auto.
    + intros [y [r [-> Hr]]]. apply Hs. exists (b :: y), r. auto.
    + intros [y [r [-> Hr]]]. apply Hu. exists (b :: y), r. auto.
Qed.

(** * The pattern of :vimgrep *)

Lemma delimited_back d rest s c : delimited d rest s -> rest_of c (s ++ rest) ->
  exists q b c', parse_pattern d c = Ok (q, b, c') /\ spells s c c' /\ rest_of c' rest /\ (b = false -> rest = []).
Proof.
  unfold parse_pattern. intros [q Hq|q j Hq Hr] Hc.
  - rewrite <- app_assoc in Hc. destruct (rest_split _ _ _ Hc) as [c1 [S1 R1]]. cbn [app] in R1. destruct (rest_cons _ _ _ R1) as [p [t [-> R2]]].
    exists q, true, t. rewrite (pattern_reads _ _ _ _ Hq _ _ S1). cbn [pattern_loop]. rewrite N.eqb_refl. cbn. rewrite app_nil_r.
    split; [reflexivity|]. split; [|split; [auto|discriminate]]. eapply spells_app; [exact S1|]. cbn. auto.
  - subst rest. rewrite app_nil_r in Hc. assert (Hc' : rest_of c (q ++ [])) by (rewrite app_nil_r; exact Hc). destruct (rest_split _ _ _ Hc') as [c1 [S1 R1]].
    exists q, false, c1. rewrite (pattern_reads _ _ _ _ Hq _ _ S1). pose proof (rest_nil_end _ R1) as He. unfold at_end in He.
    split; [|auto]. destruct c1 as [|[|?] ? ?]; try discriminate; cbn; rewrite app_nil_r; reflexivity.
Qed.

Lemma vimgrep_back rest s c : grep_pattern rest s -> rest_of c (s ++ rest) ->
  exists c', skip_vimgrep_pat c = Ok c' /\ spells s c c' /\ rest_of c' rest.
Proof.
  intros H Hc. unfold skip_vimgrep_pat. rewrite (peek1_rest _ _ Hc). destruct H as [->|r s Hr Hl|d s f Hd Hs Hf].
  - cbn [app]. exists c. split; [reflexivity|]. split; [reflexivity|exact Hc].
  - cbn [app]. rewrite Hr. destruct Hl as [t [E [L1 L2]]]. apply app_inv_head in E. subst t.
    destruct (skip_rest _ (r :: s) c rest Hc L1 L2) as [S1 R1]. unfold read_nonwhite. unfold skip_while in S1, R1. eauto.
  - cbn [app] in *. rewrite Hd. destruct (rest_cons _ _ _ Hc) as [p [t [-> R1]]]. cbn [getn snd].
    rewrite <- app_assoc in R1. destruct (delimited_back _ _ _ _ Hs R1) as [q [b [c1 [E [S1 [R2 Hb]]]]]]. rewrite E. cbn [bind].
    destruct Hf as [t' [Ef [F1 F2]]]. apply app_inv_head in Ef. subst t'.
    assert (Hfl : forall y, mem_N y (T "gj") = (y =? C "g") || (y =? C "j")).
    { intros y. cbn. rewrite orb_false_r. reflexivity. }
    destruct (skip_rest (fun x => (x =? C "g") || (x =? C "j")) f c1 rest R2) as [S2 R3].
    { rewrite forallb_forall in *. intros y Hy. rewrite <- Hfl. auto. }
    { destruct rest; [reflexivity|]. cbn [starts_with] in *. rewrite <- Hfl. exact F2. }
    destruct b; cbn [negb].
    + eexists. split; [reflexivity|]. split; [|exact R3]. cbn [spells]. split; [reflexivity|]. eapply spells_app; eauto.
    + specialize (Hb eq_refl). apply app_eq_nil in Hb. destruct Hb as [-> ->]. exists c1. split; [reflexivity|]. split; [|auto].
      cbn [spells]. split; [reflexivity|]. rewrite app_nil_r. exact S1.
Qed.

Lemma separate_back x argi c s w rest : wf c -> (c_name x = T "redir" -> argi = p_i (getpos c)) -> takes_bar x false = true ->
  text_of backquote_expression x false s w rest -> rest_of c (s ++ w ++ rest) ->
  exists z c1, separate_nextcmd x argi c = Ok (z, c1) /\ spells s c z /\ spells w z c1 /\ rest_of c1 rest.
Proof.
  intros Wc Hargi Hbar H Hc. destruct H as [s Hb|p s w rest Hb Hp Ha Hw]; [congruence|].
  unfold separate_nextcmd. rewrite <- app_assoc in Hc.
  assert (G : exists c1, (if is_vimgrep (c_name x) then skip_vimgrep_pat c else Ok c) = Ok c1 /\ spells p c c1 /\ rest_of c1 (s ++ w ++ rest)).
  { change (is_vimgrep (c_name x)) with (existsb (text_eqb (c_name x)) grep_names). destruct (existsb _ _).
    - apply vimgrep_back; auto.
    - subst p. exists c. repeat split; auto. }
  destruct G as [c1 [E1 [S1 R1]]]. rewrite E1. cbn [bind].
  assert (W1 : wf c1) by (eapply spells_wf'; eauto).
  assert (Hargi1 : c_name x = T "redir" -> argi = p_i (getpos c1)).
  { intros E. rewrite E in Hp. cbn in Hp. subst p. apply spells_nil in S1. subst c1. auto. }
  destruct (sep_back x argi c1 W1 Hargi1 rest [] (s ++ w) Ha (S (clen c1)) None c1 c1) as [ns [c2 [E2 [R2 [u [v [Euv [Su [Sv [Hv Hu]]]]]]]]]].
  reflexivity. reflexivity. lia. rewrite <- app_assoc; auto. discriminate.
  rewrite E2. cbn [bind]. do 2 eexists. split; [reflexivity|]. unfold has_flag. fold (flag (T "NOTRLCOM") x). destruct (flag (T "NOTRLCOM") x) eqn:En.
  - subst w. rewrite app_nil_r in Euv. cbn [app] in Euv. split; [|split; [reflexivity|auto]]. eapply spells_app; [exact S1|]. rewrite Euv. eapply spells_app; eauto.
  - destruct Hw as [Hw1 Hw2]. destruct (white_end_unique s w u v Euv Hw1 Hw2 Hv Hu) as [-> ->]. split; [eapply spells_app; eauto|]. auto.
Qed.

(** * Commands kept as text *)

(** The argument of :redir starts where its head ends. *)
Lemma redir_opts nv x h tl nm bang white opts rest : c_name x = T "redir" -> head_text nv x h tl nm bang white opts rest ->
  resolves nv (nm ++ bang ++ white ++ opts ++ rest) nm x -> opts = [].
Proof.
  intros E HT Hn.
  assert (Hx : flag (T "ARGOPT") x || flag (T "EDITCMD") x = false).
  { assert (Hin : forall y, In y (command_table nv) -> c_name y = T "redir" -> flag (T "ARGOPT") y || flag (T "EDITCMD") y = false).
    { assert (Hall : forallb (fun y => negb (text_eqb (c_name y) (T "redir")) || negb (flag (T "ARGOPT") y || flag (T "EDITCMD") y)) (command_table nv) = true)
        by (destruct nv; vm_compute; reflexivity).
      intros y Hy Ey. rewrite forallb_forall in Hall. specialize (Hall y Hy). rewrite Ey in Hall. apply negb_true_iff in Hall. exact Hall. }
    assert (Hfirst : forall u, first_match nv u x -> In x (command_table nv)).
    { intros u [[q [r [Hq _]]] _]. rewrite Hq. apply in_or_app. right; left; auto. }
    inversion Hn as [w' key y A1 A2 A3|w0 w' A1 [A2 _] A3]; subst.
    - apply Hin; eauto.
    - exfalso. cbn in E. subst nm. destruct (upper_word _ _ _ A1 A2) as [_ [t [El _]]].
      destruct w0 as [|q w0]; [discriminate A2|]. injection El as <- _. discriminate A2. }
  apply orb_false_iff in Hx. destruct Hx as [X1 X2].
  destruct (ht_opts _ _ _ _ _ _ _ _ _ HT) as [os [t1 [t2 [t3 [-> [O1 [_ [_ [_ [_ [_ [O3 O4]]]]]]]]]]]].
  unfold flag in *. rewrite X1 in O1. destruct O1 as [-> ->]. rewrite X2 in *. cbn [andb] in O4. inversion O4; subst; try discriminate.
  rewrite E in O3. inversion O3; subst; auto.
  - match goal with K : In _ _ |- _ => cbn in K; destruct K as [K|[K|[]]]; discriminate K end.
  - discriminate.
  - discriminate.
  - discriminate.
Qed.

Lemma all_read s c k : spells s c k -> at_end k -> getn_all c = (s, k).
Proof.
  intros Sp He. destruct (getn_all c) as [s' k'] eqn:E. apply getn_all_spells in E. destruct E as [E1 E2].
  assert (s = s') by (apply (rest_unique c); eexists; eauto). subst s'. rewrite (spells_fun _ _ _ _ Sp E1). reflexivity.
Qed.

Section Kept.
Context (x : cmd) (e : exarg) (a b d k : cursor) (pre : text) (f : frame) (r : list frame) (ch : list (text * option cmd)).
Context (Hpre : spells pre a k) (Wk : wf k) (Harg : c_name x = T "redir" -> d = k).
Let ec := mkEc e a b d x.
Let done (c : cursor) (s : text) : outcome pstate := Ok (mkSt c (add_body (VExcmd (getpos b) e s) f :: r) ch).

Lemma common_back s w u : text_of backquote_expression x (ea_usefilter e) s w u -> rest_of k (s ++ w ++ u) ->
  exists z c1, parse_cmd_common ec (mkSt k (f :: r) ch) = done c1 (pre ++ s) /\ spells s k z /\ gap w /\ spells w z c1.
Proof.
  intros H Hr. unfold parse_cmd_common, ec. cbn [ec_x ec_ea ec_arg ec_line cur]. unfold has_flag.
  fold (flag (T "TRLBAR") x). fold (takes_bar x (ea_usefilter e)). destruct (takes_bar x (ea_usefilter e)) eqn:Eb.
  - assert (Ef : ea_usefilter e = false). { apply andb_true_iff in Eb. destruct Eb as [_ Eb]. apply negb_true_iff in Eb. exact Eb. }
    rewrite Ef in *. destruct (separate_back x (p_i (getpos d)) k s w u Wk) as [z [c1 [E [S1 [S2 R1]]]]]; auto.
    { intros K. rewrite (Harg K). reflexivity. }
    rewrite E. cbn [bind]. exists z, c1. split; [|split; [auto|split; [|auto]]].
    + unfold done, add_node, with_cur, with_ctx, cmdpos. cbn [ctx cur cache ec_cmd]. rewrite (spells_getstr (pre ++ s) a z); [reflexivity|]. eapply spells_app; eauto.
    + apply all_white_iff. inversion H as [|? ? ? ? _ _ _ Hw]; subst; [intros ? []|]. destruct (flag (T "NOTRLCOM") x); [subst w; intros ? []|apply Hw].
  - inversion H as [? _|? ? ? ? Hb]; subst; [|congruence]. rewrite app_nil_r in Hr. destruct Hr as [z [S1 E1]].
    rewrite (all_read _ _ _ S1 E1). cbn [snd bind]. exists z, z. split; [|split; [auto|split; [reflexivity|reflexivity]]].
    unfold done, add_node, with_cur, with_ctx, cmdpos. cbn [ctx cur cache ec_cmd]. rewrite (spells_getstr (pre ++ s) a z); [reflexivity|]. eapply spells_app; eauto.
Qed.

Lemma wincmd_back s w u : window_key s -> all_white w -> ends_command u -> rest_of k (s ++ w ++ u) ->
  exists z c1, parse_wincmd ec (mkSt k (f :: r) ch) = done c1 (pre ++ s) /\ spells s k z /\ gap w /\ spells w z c1.
Proof.
  intros Hk Hw Hu Hr. unfold parse_wincmd, ec. cbn [ec_x ec_ea ec_arg ec_line cur].
  destruct (rest_split _ _ _ Hr) as [z [Sz Rz]].
  assert (Hwu : starts_with iswhite u = false).
  { destruct Hu as [->|[[t ->]|[t ->]]]; reflexivity. }
  destruct (skip_blank _ _ _ Rz Hw Hwu) as [S2 R2]. exists z, (skip_white z).
  assert (He : ends_excmds (peek (skip_white z)) = true).
  { pose proof (proj2 (ends_iff _ _ R2) Hu) as K. revert K. destruct (skip_white z) as [|[|q] ? ?]; auto. }
  assert (G : done (skip_white z) (pre ++ s) = if negb (ends_excmds (peek (skip_white z))) then raise (T "E474: Invalid Argument") (getpos (skip_white z))
     else add_node (VExcmd (cmdpos ec) e (getstr a z)) (with_cur (skip_white z) (mkSt k (f :: r) ch))).
  { rewrite He. cbn [negb]. unfold done, add_node, with_cur, with_ctx, cmdpos. cbn [ctx cur cache ec_cmd ec]. rewrite (spells_getstr (pre ++ s) a z); [reflexivity|]. eapply spells_app; eauto. }
  split; [|split; [auto|split; [apply all_white_iff; auto|auto]]].
  rewrite G. unfold ec. destruct Hk as [q Hq1 Hq2|q y Hq Hy].
  - rewrite (getn_exact 1 [q] k z Sz eq_refl). replace ((q =? C "g") || (q =? 7)) with false by (clear - Hq1 Hq2; cbn in *; lia). reflexivity.
  - change [q; y] with ([q] ++ [y]) in Sz. apply spells_split in Sz. destruct Sz as [m [M1 M2]].
    rewrite (getn_exact 1 [q] k m M1 eq_refl). replace ((q =? C "g") || (q =? 7)) with true by (clear - Hq; cbn in *; lia).
    rewrite (getn_exact 1 [y] m z M2 eq_refl), Hy. reflexivity.
Qed.

Lemma syntax_loop_back u s : syntax_text u s -> forall n c, rest_of c (s ++ u) -> (clen c < n)%nat ->
  exists c', syntax_loop n c = Ok c' /\ spells s c c'.
Proof.
  induction 1 as [Hu|y s Hd Hy _ IH|y dl p o s Hd Hp Ho Ho2 _ IH]; intros n c Hr Hn; (destruct n as [|n]; [lia|]); cbn [syntax_loop].
  - exists c. split; [|reflexivity]. cbn [app] in Hr. destruct Hu as [->|[t ->]].
    + apply rest_nil_end in Hr. destruct c as [|[|?] ? ?]; try discriminate; reflexivity.
    + cbn [app] in Hr. apply rest_cons in Hr. destruct Hr as [q [t' [-> _]]]. reflexivity.
  - cbn [app] in Hr. apply rest_cons in Hr. destruct Hr as [q [t [-> Hr]]]. cbn [peek ch_of_cell]. unfold syntax_delimiter in Hd.
    assert (Hm : mem_N y (T "/'""") = (y =? C "/") || (y =? C "'") || (y =? C """")) by (cbn; rewrite orb_false_r, orb_assoc; reflexivity).
    rewrite Hm in Hd. destruct ((y =? C "/") || (y =? C "'") || (y =? C """")); [discriminate|]. destruct (y =? C "="); [discriminate|].
    replace (y =? C "|") with false by (clear - Hy; lia). cbn [clen] in Hn. destruct (IH n t Hr) as [c' [E S1]]; [lia|].
    exists c'. split; [exact E|]. cbn. auto.
  - cbn [app] in Hr. apply rest_cons in Hr. destruct Hr as [q [t [-> Hr]]]. cbn [peek ch_of_cell]. unfold syntax_delimiter in Hd.
    assert (Hm : mem_N y (T "/'""") = (y =? C "/") || (y =? C "'") || (y =? C """")) by (cbn; rewrite orb_false_r, orb_assoc; reflexivity).
    rewrite Hm in Hd. rewrite <- !app_assoc in Hr. destruct (delimited_back _ _ _ _ Hp Hr) as [q1 [b1 [c1 [E [S1 [R1 Hb]]]]]].
    assert (G : exists c2, snd (getn 1 c1) = c2 /\ spells o c1 c2 /\ rest_of c2 (s ++ u)).
    { destruct o as [|z [|? ?]]; [|exists (snd (getn 1 c1)); split; [reflexivity|]; apply (getn_snd [z] 1); auto|cbn in Ho; lia].
      rewrite (Ho2 eq_refl) in *. exists c1. split; [|split; [reflexivity|auto]]. apply rest_nil_end in R1. destruct c1 as [|[|?] ? ?]; try discriminate; reflexivity. }
    destruct G as [c2 [Eg [S2 R2]]]. cbn [clen] in Hn. pose proof (spells_clen _ _ _ S1). pose proof (spells_clen _ _ _ S2).
    destruct (IH n c2 R2) as [c' [E2 S3]]; [lia|]. exists c'. split; [|cbn [spells]; split; [reflexivity|eapply spells_app; [exact S1|eapply spells_app; eauto]]].
    destruct ((y =? C "/") || (y =? C "'") || (y =? C """")).
    + injection Hd as <-. change (snd (getn 1 (Cons (R y) q t))) with t. rewrite E. cbn [bind]. rewrite Eg. exact E2.
    + destruct (y =? C "="); [|discriminate]. injection Hd as <-. change (snd (getn 1 (Cons (R y) q t))) with t. rewrite E. cbn [bind]. rewrite Eg. exact E2.
Qed.
Lemma syntax_back s u : syntax_text u s -> rest_of k (s ++ u) ->
  exists z, parse_cmd_syntax ec (mkSt k (f :: r) ch) = done z (pre ++ s) /\ spells s k z.
Proof.
  intros H Hr. unfold parse_cmd_syntax, ec. cbn [ec_x ec_ea ec_arg ec_line cur].
  destruct (syntax_loop_back u s H (S (clen k)) k Hr) as [z [E S1]]; [lia|]. rewrite E. cbn [bind]. exists z. split; [|auto].
  unfold done, add_node, with_cur, with_ctx, cmdpos. cbn [ctx cur cache ec_cmd]. rewrite (spells_getstr (pre ++ s) a z); [reflexivity|]. eapply spells_app; eauto.
Qed.

(** The script after :lua and the like. *)
Lemma script_mark t : rest_of k t ->
  (text_eqb (peekn 2 (skip_white k)) (T "<<") = true <-> exists w t', all_white w /\ t = w ++ T "<<" ++ t').
Proof.
  intros Hr. destruct (rest_exists (skip_white k)) as [s1 Hs1].
  destruct (skip_longest iswhite k s1 Hs1) as [w1 [W1 [W2 W3]]]. fold (skip_white k) in W1.
  assert (Es : t = w1 ++ s1). { apply (rest_unique k); auto. eapply rest_app; eauto. }
  rewrite text_eqb_eq, (peekn_rest 2 _ _ Hs1). split.
  - intros E. exists w1, (skipn 2 s1). split; [apply all_white_iff; auto|]. rewrite <- E, firstn_skipn. exact Es.
  - intros [w [t' [Hw E]]]. assert (s1 = T "<<" ++ t').
    { apply (longest_fun iswhite w1 w s1 (T "<<" ++ t')); auto. congruence. apply all_white_iff; auto. }
    subst s1. reflexivity.
Qed.
Lemma script_back s : ~ (exists w t, all_white w /\ s = w ++ T "<<" ++ t) -> rest_of k s ->
  exists z, parse_cmd_lua ec (mkSt k (f :: r) ch) = done z (pre ++ s) /\ spells s k z.
Proof.
  intros H Hr. pose proof (script_mark s Hr) as Hm. destruct Hr as [z [S1 E1]]. exists z. split; [|auto].
  unfold parse_cmd_lua, ec. cbn [ec_x ec_ea ec_arg ec_line cur]. cbv zeta.
  destruct (text_eqb (peekn 2 (skip_white k)) (T "<<")); [exfalso; apply H, Hm; reflexivity|].
  rewrite (all_read (pre ++ s) a z) by (auto; eapply spells_app; eauto). reflexivity.
Qed.

Lemma kept_back kept z :
  In (c_parser x) (text_parsers ++ listing_parsers) \/ (c_parser x = T "parse_cmd_finish" /\ f_kind f <> FTop) ->
  kept_text backquote_expression x (ea_usefilter e) (kept ++ z) kept ->
  (In (c_parser x) listing_parsers -> listing (c_parser x) (kept ++ z)) -> rest_of k (kept ++ z) ->
  exists k1 k2, dispatch ec (mkSt k (f :: r) ch) = done k2 (pre ++ kept) /\ spells kept k k1 /\ skip_white k2 = skip_white k1.
Proof.
  intros HP Hk Hli Hr. remember (kept ++ z) as t eqn:Et.
  destruct Hk as [s w u Hin H|s Hin H|s w u Hx Hk Hw Hu|s u Hx H].
  - destruct (common_back s w u H Hr) as [k1 [k2 [E [S1 [Hw S2]]]]]. exists k1, k2. split; [|split; [auto|]].
    2:{ symmetry. apply (skip_gap2 w); auto. }
    destruct HP as [HP|[HP Hf]].
    + apply in_app_or in HP. destruct HP as [HP|HP].
      2: { rewrite (listing_back _ k ec (mkSt k (f :: r) ch) (Hli HP) Hr Wk eq_refl). exact E. }
      assert (Hp2 : c_parser x = T "parse_cmd_common" \/ c_parser x = T "parse_cmd_usercmd").
      { clear - Hin HP. revert Hin HP. generalize (c_parser x). intros P H1 H2. cbn [bar_parsers In] in H1.
        repeat (destruct H1 as [<-|H1]; [auto; try (exfalso; apply mem_text_In in H2; discriminate H2)|]). contradiction. }
      destruct Hp2 as [Hp2|Hp2]; rewrite (dispatch_is _ parse_cmd_common ec _ Hp2 eq_refl); exact E.
    + rewrite (dispatch_is _ parse_cmd_finish ec _ HP eq_refl). unfold parse_cmd_finish. rewrite E. unfold done. cbn [bind top_frame ctx add_body f_kind].
      destruct (f_kind f); congruence.
  - assert (z = []) by (rewrite <- (app_nil_r s) in Et at 1; apply app_inv_head in Et; auto). subst z.
    destruct (script_back s H Hr) as [k1 [E S1]]. exists k1, k1. split; [|auto].
    assert (Hd : dispatch ec (mkSt k (f :: r) ch) = parse_cmd_lua ec (mkSt k (f :: r) ch)).
    { cbn [script_parsers In] in Hin. repeat (destruct Hin as [Hin|Hin]; [symmetry in Hin; apply (dispatch_is _ parse_cmd_lua ec _ Hin eq_refl)|]). contradiction. }
    rewrite Hd. exact E.
  - destruct (wincmd_back s w u Hk Hw Hu Hr) as [k1 [k2 [E [S1 [Hw' S2]]]]]. exists k1, k2. split; [|split; [auto|]].
    + rewrite (dispatch_is _ parse_wincmd ec _ Hx eq_refl). exact E.
    + symmetry. apply (skip_gap2 w); auto.
  - destruct (syntax_back s u H Hr) as [k1 [E S1]]. exists k1, k1. split; [|auto]. rewrite (dispatch_is _ parse_cmd_syntax ec _ Hx eq_refl). exact E.
Qed.

(** :finish at the top level. *)
Lemma finish_back kept z : c_parser x = T "parse_cmd_finish" -> f_kind f = FTop ->
  kept_text backquote_expression x (ea_usefilter e) (kept ++ z) kept -> rest_of k (kept ++ z) ->
  exists c1, dispatch ec (mkSt k (f :: r) ch) = done (seek_end0 c1) (pre ++ kept).
Proof.
  intros HP Hf Hk Hr. remember (kept ++ z) as t eqn:Et.
  destruct Hk as [s w u Hin H|s Hin H|s w u Hx Hk Hw Hu|s u Hx H].
  2: { exfalso. rewrite HP in Hin. apply mem_text_In in Hin. discriminate. }
  2: { exfalso. rewrite HP in Hx. discriminate. }
  2: { exfalso. rewrite HP in Hx. discriminate. }
  destruct (common_back s w u H Hr) as [k1 [k2 [E _]]]. exists k2.
  rewrite (dispatch_is _ parse_cmd_finish ec _ HP eq_refl). unfold parse_cmd_finish. rewrite E. unfold done. cbn [bind top_frame ctx add_body f_kind]. rewrite Hf. reflexivity.
Qed.

(** Commands that take the lines below. *)
Lemma lines_back rest m p t : takes_lines x rest m -> rest_of k rest -> spells rest k (Cons EOL p t) ->
  dispatch ec (mkSt k (f :: r) ch) =
    let* '(ls, c2) := match m with Some m' => until_marker (S (clen t)) m' t | None => read_all_lines (S (clen t)) t end in
    done c2 (joined (pre ++ rest) ls).
Proof.
  intros H Hr Sp. pose proof (getn_all_exact _ _ _ _ (spells_app _ _ _ _ _ Hpre Sp)) as Eall.
  assert (Ej : forall l ls, join_lines (l :: ls) = joined l ls) by (intros; apply join_concat).
  destruct H as [s Hin|s Hin|w1 w2 m Hin Hw1 Hw2 Hm].
  - assert (Hd : dispatch ec (mkSt k (f :: r) ch) = parse_cmd_append ec (mkSt k (f :: r) ch)).
    { cbn [In] in Hin. repeat (destruct Hin as [Hin|Hin]; [symmetry in Hin; apply (dispatch_is _ parse_cmd_append ec _ Hin eq_refl)|]). contradiction. }
    rewrite Hd. unfold parse_cmd_append, readline, ec. cbn [ec_line]. rewrite Eall. cbn [get snd]. destruct (until_marker _ _ _) as [[ls c2]| | |]; try reflexivity.
    cbn [bind]. rewrite Ej. reflexivity.
  - rewrite (dispatch_is _ parse_cmd_loadkeymap ec _ Hin eq_refl). unfold parse_cmd_loadkeymap, readline, ec. cbn [ec_line]. rewrite Eall. cbn [get snd].
    destruct (read_all_lines _ _) as [[ls c2]| | |]; try reflexivity. cbn [bind]. rewrite Ej. reflexivity.
  - assert (Hd : dispatch ec (mkSt k (f :: r) ch) = parse_cmd_lua ec (mkSt k (f :: r) ch)).
    { cbn [script_parsers In] in Hin. repeat (destruct Hin as [Hin|Hin]; [symmetry in Hin; apply (dispatch_is _ parse_cmd_lua ec _ Hin eq_refl)|]). contradiction. }
    rewrite Hd. unfold parse_cmd_lua. cbv zeta. cbn [cur].
    assert (K : text_eqb (peekn 2 (skip_white k)) (T "<<") = true) by (apply (script_mark _ Hr); eauto). rewrite K.
    destruct (skip_blank _ _ _ Hr Hw1 ltac:(reflexivity)) as [S1 R1].
    destruct (getn_snd (T "<<") 2 _ _ R1 eq_refl) as [S2 R2]. destruct (skip_blank _ _ _ R2 Hw2 Hm) as [S3 R3].
    assert (Em : fst (readline (skip_white (snd (getn 2 (skip_white k))))) = m).
    { unfold readline. destruct (getn_all (skip_white (snd (getn 2 (skip_white k))))) as [m0 e0'] eqn:E0. cbn [fst].
      apply getn_all_spells in E0. destruct E0. apply (rest_unique (skip_white (snd (getn 2 (skip_white k))))); auto. exists e0'; auto. }
    rewrite Em. unfold ec. cbn [ec_line]. rewrite Eall. cbn [get snd].
    replace (if is_nil m then T "." else m) with (match m with [] => T "." | _ => m end) by (destruct m; reflexivity).
    destruct (until_marker _ _ _) as [[ls c2]| | |]; try reflexivity. cbn [bind]. rewrite Ej. reflexivity.
Qed.
End Kept.

(** * The lines below a command *)

Lemma lay_line l s c k : lay (chars l ++ EOL :: s) c k -> exists p t, spells l c (Cons EOL p t) /\ lay s t k.
Proof. intros H. apply lay_app in H. destruct H as [m [H1 H2]]. apply lay_chars in H1. apply lay_cons in H2. destruct H2 as [p [t [-> H2]]]. eauto. Qed.
Lemma not_eof_line l c p t : spells l c (Cons EOL p t) -> is_eof c = false.
Proof. destruct l; cbn [spells]; [intros ->; reflexivity|]. destruct c as [|[|?] ? ?]; tauto. Qed.

Lemma until_back m ls s : ~ In m ls -> forall n c k, lay (lines_text (ls ++ [m]) ++ s) c k -> (clen c < n)%nat ->
  exists p t, until_marker n m c = Ok (ls ++ [m], Cons EOL p t) /\ lay s t k /\ lay (lines_text (ls ++ [m])) c t.
Proof.
  intros Hin. induction ls as [|l ls IH]; intros n c k L Hn; (destruct n as [|n]; [lia|]); cbn [until_marker].
  - cbn [app lines_text map concat] in L. rewrite app_nil_r, <- app_assoc in L. cbn [app] in L. destruct (lay_line _ _ _ _ L) as [p [t [Sp Lt]]].
    rewrite (not_eof_line _ _ _ _ Sp), (getn_all_exact _ _ _ _ Sp), text_eqb_rfl. exists p, t. split; [reflexivity|]. split; [auto|].
    cbn [app lines_text map concat]. rewrite app_nil_r. apply lay_app. exists (Cons EOL p t). split; [apply lay_chars; auto|cbn; auto].
  - cbn [app lines_text map concat] in L. rewrite <- !app_assoc in L. cbn [app] in L. destruct (lay_line _ _ _ _ L) as [p [t [Sp Lt]]].
    rewrite (not_eof_line _ _ _ _ Sp), (getn_all_exact _ _ _ _ Sp).
    destruct (text_eqb l m) eqn:E. { apply text_eqb_eq in E. subst. exfalso. apply Hin. left. reflexivity. }
    cbn [get snd]. pose proof (spells_clen _ _ _ Sp) as Hc. cbn [clen] in Hc.
    destruct (IH ltac:(intros K; apply Hin; right; exact K) n t k Lt) as [p2 [t2 [E2 [L2 L3]]]]; [lia|].
    rewrite E2. cbn [bind]. exists p2, t2. split; [reflexivity|]. split; [auto|].
    cbn [app lines_text map concat]. apply lay_app. exists t. split; [|exact L3]. apply lay_app. exists (Cons EOL p t). split; [apply lay_chars; auto|cbn; auto].
Qed.
Lemma until_end m ls : ~ In m ls -> forall n c k, lay (lines_text ls) c k -> is_eof k = true -> (clen c < n)%nat ->
  until_marker n m c = Ok (ls, k).
Proof.
  intros Hin. induction ls as [|l ls IH]; intros n c k L Hk Hn; (destruct n as [|n]; [lia|]); cbn [until_marker].
  - cbn in L. subst. rewrite Hk. reflexivity.
  - cbn [app lines_text map concat] in L. rewrite <- !app_assoc in L. cbn [app] in L. destruct (lay_line _ _ _ _ L) as [p [t [Sp Lt]]].
    rewrite (not_eof_line _ _ _ _ Sp), (getn_all_exact _ _ _ _ Sp).
    destruct (text_eqb l m) eqn:E. { apply text_eqb_eq in E. subst. exfalso. apply Hin. left. reflexivity. }
    cbn [get snd]. pose proof (spells_clen _ _ _ Sp) as Hc. cbn [clen] in Hc.
    rewrite (IH ltac:(intros K; apply Hin; right; exact K) n t k Lt Hk) by lia. reflexivity.
Qed.
Lemma all_lines_end ls : forall n c k, lay (lines_text ls) c k -> is_eof k = true -> (clen c < n)%nat ->
  read_all_lines n c = Ok (ls, k).
Proof.
  induction ls as [|l ls IH]; intros n c k L Hk Hn; (destruct n as [|n]; [lia|]); cbn [read_all_lines].
  - cbn in L. subst. rewrite Hk. reflexivity.
  - cbn [app lines_text map concat] in L. rewrite <- !app_assoc in L. cbn [app] in L. destruct (lay_line _ _ _ _ L) as [p [t [Sp Lt]]].
    rewrite (not_eof_line _ _ _ _ Sp). unfold readline. rewrite (getn_all_exact _ _ _ _ Sp).
    cbn [get snd]. pose proof (spells_clen _ _ _ Sp) as Hc. cbn [clen] in Hc.
    rewrite (IH n t k Lt Hk) by lia. reflexivity.
Qed.
