(** [Compiler.sprintf0] against [Format]. *)
From Coq Require Import Lia ZifyBool ZifyNat ZifyN.
From Verif Require Import Base Compiler Format.

Definition vstep (st : nat) (c : N) : option nat :=
  match st with
  | O => if is_flag c then Some 0%nat else if is_digit c then Some 1%nat else if c =? C "." then Some 2%nat else None
  | S O => if is_digit c then Some 1%nat else if c =? C "." then Some 2%nat else None
  | _ => if is_digit c then Some 2%nat else None
  end.
Fixpoint vrun (st : nat) (s : text) : option nat :=
  match s with [] => Some st | c :: s' => match vstep st c with Some st' => vrun st' s' | None => None end end.
Lemma vrun_app s t st : vrun st (s ++ t) = match vrun st s with Some st' => vrun st' t | None => None end.
Proof. revert st. induction s as [|c s IH]; intros st; cbn [app vrun]; auto. destruct (vstep st c); auto. Qed.

Lemma digit_in c : In c (T "0123456789") <-> is_digit c = true.
Proof. unfold is_digit. change (In c [48;49;50;51;52;53;54;55;56;57] <-> (48 <=? c) && (c <=? 57) = true). cbn [In]. split; [intuition lia|intros; lia]. Qed.
Lemma flag_in c : In c (T "#0+- ") <-> is_flag c = true.
Proof. unfold is_flag. change (In c [35;48;43;45;32] <-> mem_N c [35;48;43;45;32] = true). cbn [In mem_N]. lia. Qed.
Lemma vrun_digits2 ds : Forall (fun c => In c (T "0123456789")) ds -> vrun 2 ds = Some 2%nat.
Proof. induction 1 as [|c l H _ IH]; auto. apply digit_in in H. cbn [vrun vstep]. rewrite H. auto. Qed.
Lemma vrun_digits1 ds : Forall (fun c => In c (T "0123456789")) ds -> vrun 1 ds = Some 1%nat.
Proof. induction 1 as [|c l H _ IH]; auto. apply digit_in in H. cbn [vrun vstep]. rewrite H. auto. Qed.
Lemma vrun_digits0 ds : Forall (fun c => In c (T "0123456789")) ds -> exists st, (st = 0%nat \/ st = 1%nat) /\ vrun 0 ds = Some st.
Proof.
  induction 1 as [|c l H HF IH]; [exists 0%nat; auto|]. apply digit_in in H. cbn [vrun vstep]. destruct (is_flag c); [exact IH|]. rewrite H. exists 1%nat. split; auto using vrun_digits1.
Qed.
Lemma vrun_flags fs : Forall (fun c => In c (T "#0+- ")) fs -> vrun 0 fs = Some 0%nat.
Proof. induction 1 as [|c l H _ IH]; auto. apply flag_in in H. cbn [vrun vstep]. rewrite H. auto. Qed.
Lemma vrun2_digits s st : vrun 2 s = Some st -> Forall (fun c => In c (T "0123456789")) s.
Proof. induction s as [|c s IH]; auto. cbn [vrun vstep]. destruct (is_digit c) eqn:D; [|discriminate]. intros H. constructor; [apply digit_in; auto|auto]. Qed.
Lemma vrun1_spec s st : vrun 1 s = Some st -> exists width prec, s = width ++ prec /\ Forall (fun c => In c (T "0123456789")) width /\
  (prec = [] \/ exists ds, prec = C "." :: ds /\ Forall (fun c => In c (T "0123456789")) ds).
Proof.
  induction s as [|c s IH]; [exists [], []; auto|]. cbn [vrun vstep]. destruct (is_digit c) eqn:D.
  - intros H. destruct (IH H) as [w [p [-> [F P]]]]. exists (c :: w), p. split; auto. split; auto. constructor; auto. apply digit_in; auto.
  - destruct (c =? C ".") eqn:E; [|discriminate]. intros H. exists [], (c :: s). split; auto. split; auto. right. exists s. split; [f_equal; lia|]. exact (vrun2_digits _ _ H).
Qed.
Lemma vrun_spec s : verb_spec s <-> vrun 0 s <> None.
Proof.
  split.
  - intros [fs [w [p [-> [F [W P]]]]]]. rewrite vrun_app, (vrun_flags _ F), vrun_app. destruct (vrun_digits0 _ W) as [st [S ->]].
    destruct P as [->|[ds [-> D]]]; [discriminate|]. cbn [vrun]. replace (vstep st (C ".")) with (Some 2%nat) by (destruct S; subst; reflexivity).
    rewrite (vrun_digits2 _ D). discriminate.
  - destruct (vrun 0 s) as [st|] eqn:E; [|congruence]. intros _. revert E. induction s as [|c s IH]; [exists [], [], []; auto|].
    cbn [vrun vstep]. destruct (is_flag c) eqn:F.
    + intros H. destruct (IH H) as [fs [w [p [-> [F' P]]]]]. exists (c :: fs), w, p. split; auto. split; [|exact P]. constructor; auto. apply flag_in; auto.
    + destruct (is_digit c) eqn:D.
      * intros H. destruct (vrun1_spec _ _ H) as [w [p [-> [W P]]]]. exists [], (c :: w), p. split; auto. split; auto. split; auto. constructor; auto. apply digit_in; auto.
      * destruct (c =? C ".") eqn:E; [|discriminate]. intros H. exists [], [], (c :: s). split; auto. split; auto. split; auto. right. exists s. split; [f_equal; lia|]. exact (vrun2_digits _ _ H).
Qed.
Lemma skip_run f : forall st : nat, (st <= 2)%nat -> exists s st', f = s ++ skip_verb_prefix st f /\ vrun st s = Some st' /\
  match skip_verb_prefix st f with [] => True | v :: _ => vstep st' v = None end.
Proof.
  induction f as [|c f IH]; intros st L; [exists [], st; repeat split|].
  assert (K : forall st2, (st2 <= 2)%nat -> vstep st c = Some st2 -> skip_verb_prefix st (c :: f) = skip_verb_prefix st2 f ->
    exists s st', c :: f = s ++ skip_verb_prefix st (c :: f) /\ vrun st s = Some st' /\ match skip_verb_prefix st (c :: f) with [] => True | v :: _ => vstep st' v = None end).
  { intros st2 L2 Hs ->. destruct (IH st2 L2) as [s [st' [E [R M]]]]. exists (c :: s), st'. split; [cbn [app]; f_equal; auto|]. split; auto. cbn [vrun]. rewrite Hs. auto. }
  assert (Z : vstep st c = None -> skip_verb_prefix st (c :: f) = c :: f ->
    exists s st', c :: f = s ++ skip_verb_prefix st (c :: f) /\ vrun st s = Some st' /\ match skip_verb_prefix st (c :: f) with [] => True | v :: _ => vstep st' v = None end).
  { intros Hs ->. exists [], st. auto. }
  destruct st as [|[|[|]]]; [| | |lia]; cbn [vstep skip_verb_prefix] in *.
  - destruct (is_flag c); [apply (K 0%nat); auto; lia|]. destruct (is_digit c); [apply (K 1%nat); auto; lia|].
    destruct (c =? C "."); [apply (K 2%nat); auto|apply Z; auto].
  - destruct (is_digit c); [apply (K 1%nat); auto; lia|]. destruct (c =? C "."); [apply (K 2%nat); auto|apply Z; auto].
  - destruct (is_digit c); [apply (K 2%nat); auto|apply Z; auto].
Qed.

Lemma sprintf_formatted k : forall f, (length f < k)%nat -> formatted f (sprintf0_ k f).
Proof.
  induction k as [|k IH]; intros f L; [lia|]. destruct f as [|c f]; cbn [sprintf0_]; [constructor|]. cbn [length] in L.
  destruct (c =? C "%") eqn:E.
  - assert (c = C "%") by lia. subst c. destruct (skip_run f 0 ltac:(lia)) as [s [st [Ef [R M]]]].
    assert (V : verb_spec s) by (apply vrun_spec; congruence).
    destruct (skip_verb_prefix 0 f) as [|v r].
    + rewrite app_nil_r in Ef. subst s. exact (fm_none f V).
    + assert (Lr : (length r < k)%nat) by (rewrite Ef, app_length in L; cbn [length] in L; lia).
      rewrite Ef. destruct (v =? C "%") eqn:Ev.
      * assert (v = C "%") by lia. subst v. apply (fm_percent s r); auto.
      * rewrite <- !app_assoc. apply (fm_verb s v r); auto; [|lia]. rewrite vrun_spec, vrun_app, R. cbn [vrun]. rewrite M. congruence.
  - apply fm_plain; [lia|]. apply IH. lia.
Qed.

(** ** Only a format without a percent sign is written as it is. *)
Fixpoint percents (s : text) : nat := match s with [] => 0 | c :: r => (if c =? C "%" then 1 else 0) + percents r end.
Lemma percents_app s t : percents (s ++ t) = (percents s + percents t)%nat.
Proof. induction s as [|c s IH]; cbn [app percents]; auto. rewrite IH. lia. Qed.
Lemma formatted_percents f o : formatted f o -> (percents o <= percents f)%nat.
Proof.
  induction 1 as [|c f o N H IH|s f o V H IH|s v f o V N1 N2 H IH|s V].
  - auto.
  - cbn [percents]. lia.
  - cbn [percents]. rewrite percents_app. cbn [percents]. lia.
  - rewrite !percents_app. change (percents (T "%!")) with 1%nat. change (percents (T "(MISSING)")) with 0%nat. cbn [percents]. rewrite percents_app.
    cbn [percents]. change (C "%" =? C "%") with true. cbn iota. destruct (v =? C "%") eqn:E; [lia|]. lia.
  - change (percents (T "%!(NOVERB)")) with 1%nat. cbn [percents]. change (C "%" =? C "%") with true. cbn iota. lia.
Qed.
Lemma formatted_shorter f o : formatted f o -> forall w, w <> [] -> ~ In (C "%") w -> f <> w ++ o.
Proof.
  induction 1 as [|c f o N H IH|s f o V H IH|s v f o V N1 N2 H IH|s V]; intros w Nw Hw E; (destruct w as [|x w]; [congruence|]); try discriminate E; injection E as Ex E;
    try (apply Hw; left; symmetry; exact Ex).
  apply (IH (w ++ [c])); [destruct w; discriminate|intros K; apply in_app_or in K; destruct K as [K|[K|[]]]; [apply Hw; right; auto|congruence]|].
  rewrite <- app_assoc. exact E.
Qed.
Lemma no_bang s c r : verb_spec s -> s ++ r = C "!" :: c -> s = [].
Proof.
  intros V E. destruct s as [|x s]; auto. injection E as -> _. exfalso. apply vrun_spec in V. apply V. reflexivity.
Qed.
Lemma formatted_fixed f : formatted f f -> ~ In (C "%") f.
Proof.
  enough (G : forall o, formatted f o -> o = f -> ~ In (C "%") f) by (intros H; exact (G f H eq_refl)).
  intros o H. induction H as [|c f o N H IH|s f o V H IH|s v f o V N1 N2 H IH|s V]; intros E.
  - intros [].
  - injection E as E. intros [K|K]; [congruence|]. exact (IH E K).
  - exfalso. injection E as E. apply formatted_percents in H. rewrite E, percents_app in H. cbn [percents] in H. change (C "%" =? C "%") with true in H. cbn iota in H. lia.
  - exfalso. assert (E' : s ++ v :: f = C "!" :: v :: T "(MISSING)" ++ o) by (change (C "%" :: C "!" :: v :: T "(MISSING)" ++ o = C "%" :: s ++ v :: f) in E; congruence).
    pose proof (no_bang _ _ _ V E') as ->. cbn [app] in E'. injection E' as _ E'.
    apply (formatted_shorter _ _ H (v :: T "(MISSING)")); [discriminate| |exact E'].
    intros [K|K]; [congruence|]. revert K. cbn. intuition discriminate.
  - exfalso. assert (E' : s ++ [] = C "!" :: T "(NOVERB)") by (rewrite app_nil_r; change (C "%" :: C "!" :: T "(NOVERB)" = C "%" :: s) in E; congruence).
    pose proof (no_bang _ _ _ V E') as ->. discriminate E'.
Qed.
Lemma sprintf_iff f : sprintf0 f = f <-> ~ In (C "%") f.
Proof.
  split.
  - intros E. apply formatted_fixed. rewrite <- E at 2. apply sprintf_formatted. lia.
  - unfold sprintf0. generalize (S (length f)) (Nat.lt_succ_diag_r (length f)). intros k. revert f. induction k as [|k IH]; intros f L H; [lia|].
    destruct f as [|c f]; auto. cbn [sprintf0_ length] in *. destruct (c =? C "%") eqn:E; [exfalso; apply H; left; lia|]. f_equal. apply IH; [lia|]. intros K; apply H; right; auto.
Qed.
(** A format has one text. *)
Lemma formatted_fun f o : formatted f o -> o = sprintf0 f.
Proof.
  unfold sprintf0. generalize (S (length f)) (Nat.lt_succ_diag_r (length f)). intros k L H. revert k L.
  assert (SK : forall s v r st0, (st0 <= 2)%nat -> vrun st0 s <> None -> vrun st0 (s ++ [v]) = None -> skip_verb_prefix st0 (s ++ v :: r) = v :: r).
  { induction s as [|c s IH]; intros v r st0 L V N.
    - cbn [app vrun] in *. destruct st0 as [|[|[|]]]; [| | |lia]; cbn [vstep skip_verb_prefix app] in *;
        repeat match type of N with context [if ?b then _ else _] => destruct b end; try discriminate N; auto.
    - cbn [app vrun] in *. destruct (vstep st0 c) as [st1|] eqn:S1; [|congruence].
      assert (L1 : (st1 <= 2)%nat /\ skip_verb_prefix st0 (c :: s ++ v :: r) = skip_verb_prefix st1 (s ++ v :: r)).
      { destruct st0 as [|[|[|]]]; [| | |lia]; cbn [vstep skip_verb_prefix] in *;
        repeat match type of S1 with context [if ?b then _ else _] => destruct b end; try discriminate S1; injection S1 as <-; split; auto. }
      destruct L1 as [L1 ->]. apply IH; auto. }
  induction H as [|c f o N H IH|s f o V H IH|s v f o V N1 N2 H IH|s V]; intros k L; (destruct k as [|k]; [lia|]); cbn [sprintf0_]; cbn [length] in L.
  - reflexivity.
  - replace (c =? C "%") with false by lia. f_equal. apply IH. lia.
  - change (C "%" =? C "%") with true. cbn iota. rewrite app_length in L. cbn [length] in L. rewrite SK; [|lia|apply vrun_spec; auto|].
    + change (C "%" =? C "%") with true. cbn iota. cbn [app]. f_equal. apply IH. lia.
    + apply vrun_spec in V. rewrite vrun_app. destruct (vrun 0 s) as [[|[|]]|]; reflexivity.
  - change (C "%" =? C "%") with true. cbn iota. rewrite app_length in L. cbn [length] in L. rewrite SK; [|lia|apply vrun_spec; auto|].
    + replace (v =? C "%") with false by lia. rewrite <- !app_assoc. do 3 f_equal. apply IH. lia.
    + rewrite vrun_spec in N1. destruct (vrun 0 (s ++ [v])); [exfalso; apply N1; discriminate|auto].
  - change (C "%" =? C "%") with true. cbn iota. destruct (skip_run s 0 ltac:(lia)) as [s1 [st [Es [R M]]]]. destruct (skip_verb_prefix 0 s) as [|v r]; [reflexivity|].
    exfalso. apply vrun_spec in V. apply V. rewrite Es, vrun_app, R. cbn [vrun]. rewrite M. reflexivity.
Qed.
