(** What the printer writes is read back. *)
From Coq Require Import Lia ZifyBool ZifyNat ZifyN.
From Verif Require Import Base Utf8 CharClass Reader Vnode Token Ast Cursor Grammar TokSafe ExprSafe
  Tokenizer ExprParser Export ExportSafe Api ApiExpr Places PlacesProof LinesProof OneLine Nodes Join WalkProof NodeFacts Blocks RefAgree Printer Written WrittenProof Lookahead WrittenBrace.

(** * The characters of a source *)

Definition plain_char (r : N) : Prop := scalar r = true /\ r <> 10.

Lemma decode_scalar l : forall k, (length l <= k)%nat -> Forall (fun r => scalar r = true) (decode l).
Proof.
  intros k. revert l. induction k as [|k IH]; intros l Hk.
  - destruct l; [constructor|cbn in Hk; lia].
  - destruct l as [|b0 t0]; [constructor|].
    assert (H0 : Forall (fun r => scalar r = true) (decode t0)) by (apply IH; cbn in Hk; lia).
    assert (E0 : Forall (fun r => scalar r = true) (rune_error :: decode t0)) by (constructor; auto).
    cbn [decode]. destruct (b0 <? 128) eqn:E1; [constructor; auto; unfold scalar; lia|].
    destruct (in_range 194 223 b0) eqn:E2; [|destruct (in_range 224 239 b0) eqn:E3; [|destruct (in_range 240 244 b0) eqn:E4; auto]].
    + destruct t0 as [|b1 t1]; auto. destruct (is_cont b1) eqn:F; auto.
      constructor; [unfold is_cont, in_range, scalar in *; lia|]. apply IH; cbn in Hk; lia.
    + destruct t0 as [|b1 [|b2 t2]]; auto. destruct (ok2_of3 b0 b1 && is_cont b2) eqn:F; auto.
      constructor; [|apply IH; cbn in Hk; lia].
      unfold ok2_of3, is_cont, in_range, scalar in *. destruct (b0 =? 224) eqn:G1; [lia|]. destruct (b0 =? 237) eqn:G2; lia.
    + destruct t0 as [|b1 [|b2 [|b3 t3]]]; auto. destruct (ok2_of4 b0 b1 && is_cont b2 && is_cont b3) eqn:F; auto.
      constructor; [|apply IH; cbn in Hk; lia].
      unfold ok2_of4, is_cont, in_range, scalar in *. destruct (b0 =? 240) eqn:G1; [lia|]. destruct (b0 =? 244) eqn:G2; lia.
Qed.

(** Every character of a text. *)
Fixpoint all_chars (P : N -> Prop) (c : cursor) : Prop :=
  match c with Eof _ => True | Cons (R r) _ t => P r /\ all_chars P t | Cons EOL _ t => all_chars P t end.
Lemma put_first_all P t : forall i ln col off k, Forall P t -> (forall j, all_chars P (k j)) -> all_chars P (put_first t i ln col off k).
Proof. induction t as [|r t IH]; intros; inversion H; subst; cbn [put_first all_chars]; auto. Qed.
Lemma put_cont_all P t : forall i ln col k, Forall P t -> (forall j, all_chars P (k j)) -> all_chars P (put_cont t i ln col k).
Proof. induction t as [|r t IH]; intros; inversion H; subst; cbn [put_cont all_chars]; auto. Qed.
Lemma skip_backslash_all P l : forall col, Forall P l -> Forall P (fst (skip_backslash l col)).
Proof. induction l as [|r l IH]; intros col H; cbn [skip_backslash]; auto. inversion H; subst. destruct (r =? 92); cbn; auto. Qed.
Lemma build_all P ts : Forall (Forall P) ts -> forall i ln col off, all_chars P (build_more ts i ln col off).
Proof.
  induction 1 as [|l ts H _ IH]; intros; cbn [build_more]; [cbn; auto|]. destruct (re_continuation l).
  - pose proof (skip_backslash_all P l 0 H) as K. destruct (skip_backslash l 0) as [t c]. apply put_cont_all; auto.
  - cbn [all_chars]. apply put_first_all; auto.
Qed.
Lemma reader_all P ts : Forall (Forall P) ts -> all_chars P (new_reader ts).
Proof. destruct 1; cbn [new_reader]; [exact Logic.I|]. apply put_first_all; auto. intros. apply build_all; auto. Qed.
Lemma source_scalar src : all_chars (fun r => scalar r = true) (open_source src).
Proof.
  destruct src as [bs b]. destruct (seen_exists bs) as [ts H]. rewrite (seen_open _ _ b H). apply reader_all.
  destruct H as [ls [ls1 [ls2 [_ [_ [_ ->]]]]]]. apply Forall_forall. intros t Ht. apply in_map_iff in Ht.
  destruct Ht as [l [<- _]]. eapply decode_scalar, le_n.
Qed.
Lemma all_and P Q c : all_chars P c -> all_chars Q c -> all_chars (fun r => P r /\ Q r) c.
Proof. induction c as [|[|r] p t IH]; cbn [all_chars]; tauto. Qed.
Lemma sfx_all P d c : sfx d c -> all_chars P c -> all_chars P d.
Proof. induction 1; auto. intros K. apply IHsfx. destruct x; cbn [all_chars] in K; tauto. Qed.
Lemma spells_all P s : forall d c, all_chars P d -> spells s d c -> Forall P s.
Proof.
  induction s as [|r s IH]; intros d c H K; [constructor|]. destruct d as [|[|r'] p t]; cbn in K; try contradiction.
  destruct K as [-> K]. destruct H. constructor; eauto.
Qed.

Lemma source_plain src : all_chars plain_char (open_source src).
Proof.
  apply all_and; [apply source_scalar|]. pose proof (source_lf src) as H. revert H.
  generalize (open_source src). induction c as [|[|r] p t IH]; cbn [all_chars no_lf]; tauto.
Qed.

(** * An expression on the first line *)

Lemma spells_nil a b : spells [] a b -> a = b.
Proof. cbn. congruence. Qed.

Lemma stop_line w e c p t : gap w -> e = nothing w -> spells w c (Cons EOL p t) -> forall dot, stop e dot 1 c.
Proof.
  intros Hw He Sp dot. split; [|split].
  - intros E. rewrite E in He. destruct w; [|discriminate]. apply spells_nil in Sp. subst c. reflexivity.
  - destruct w as [|r w]; [apply spells_nil in Sp; subst c; reflexivity|].
    apply (gap_fits dot (r :: w) [] c (Cons EOL p t)); auto; [discriminate|rewrite app_nil_r; auto].
  - do 2 eexists. split.
    + unfold tget. rewrite (skip_gap w c (Cons EOL p t)); auto. reflexivity.
    + cbn [tk lev]. lia.
Qed.

Theorem written_source bs fails w1 s w2 ls n :
  seen_lines bs ((w1 ++ s ++ w2) :: ls) -> match ls with t :: _ => ~ is_continuation t | [] => True end ->
  gap w1 -> gap w2 -> written (nothing w2) 1 n s ->
  exists n', ParseExpr (mkSource bs fails) = Returned (Some n') /\ unplaced n' = unplaced n.
Proof.
  intros Hs Hc Hw1 Hw2 Hw. destruct (first_line _ fails _ _ Hs Hc) as [p [t [Sp _]]].
  pose proof (open_source_wf (mkSource bs fails)) as Wf. set (c := open_source (mkSource bs fails)) in *.
  rewrite app_assoc in Sp. apply spells_split in Sp. destruct Sp as [k [Sp1 Sp2]].
  destruct (reads1 _ _ _ (proj1 written_reads _ _ _ _ Hw) (S (clen c)) w1 c k Hw1 Sp1 Wf (le_n _)) as [v [Hv [n' [N1 [N2 N3]]]]].
  { eapply stop_line; eauto. }
  exists n'. split; auto. unfold ParseExpr, parse_expr_to_ast. fold c. unfold parse_expr. rewrite Hv. cbn [bind].
  rewrite N1. cbn [bind recovered]. unfold to_expr. rewrite N2. reflexivity.
Qed.

(** * The printed text *)

Lemma written_le l l' e n s : (1 <= l <= l')%nat -> (l' <= 9)%nat -> written e l' n s -> written e l n s.
Proof.
  intros H1 H2. destruct H1 as [H0 H1]. revert H2. induction H1 as [|l' H1 IH]; auto. intros H2 W. apply IH; [lia|].
  apply wr_up; [lia|auto].
Qed.
Lemma written_any e l n s : written e l n s -> forall e', (e = true -> e' = true) -> written e' l n s.
Proof.
  induction 1; intros e' He.
  - apply wr_up; auto.
  - eapply wr_ternary; eauto.
  - eapply wr_binary; eauto.
  - eapply wr_unary; eauto.
  - eapply wr_subscript; eauto.
  - eapply wr_slice; eauto.
  - eapply wr_method; eauto.
  - eapply wr_call; eauto.
  - eapply wr_dot; eauto.
  - eapply wr_lit; eauto.
  - eapply wr_list; eauto.
  - eapply wr_paren; eauto.
  - eapply wr_name; eauto.
  - eapply wr_dict; eauto.
  - eapply wr_lambda; eauto.
  - eapply wr_curly_word; eauto.
  - eapply wr_curly_sid; eauto.
  - eapply wr_curly_brace; eauto.
Qed.

Lemma spaced sp : lengthens sp 32 = false.
Proof. unfold lengthens. change (mem_N 32 (T "?#")) with false. change (iswordc 32) with false. rewrite !andb_false_r. reflexivity. Qed.

Definition ends (c : cursor) : bool := match peek1 c with None => true | _ => false end.

Lemma tok_at_goes k c p c' : tok_at k c p c' -> spelling k <> None -> ends c = false.
Proof.
  intros [t [[d [B [_ H]]] [Hk _]]] Hs.
  assert (K : spells (tv t) d c' /\ lexeme k (tv t)) by (rewrite Hk in H; destruct k; try exact H; cbn in Hs; congruence).
  destruct K as [K1 K2]. unfold lexeme in K2. destruct (spelling k) as [w|] eqn:E; [|congruence].
  assert (W : w <> []) by (destruct k; inversion E; try discriminate; destruct o; discriminate).
  rewrite K2 in K1. destruct w as [|r w]; [congruence|]. destruct B as [ws [B _]].
  unfold ends. destruct ws as [|x ws].
  - apply spells_nil in B. subst d. apply spells_head in K1. destruct K1 as [q [t' [-> _]]]. reflexivity.
  - apply spells_head in B. destruct B as [q [t' [-> _]]]. reflexivity.
Qed.

Definition pchar (s : text) : Prop := Forall plain_char s.
Lemma pchar_ops t : pchar (token_string t).
Proof.
  apply Forall_forall. intros r Hr.
  assert (K : forallb (fun r => scalar r && negb (r =? 10)) (token_string t) = true) by (destruct t; vm_compute; reflexivity).
  rewrite forallb_forall in K. specialize (K _ Hr). apply andb_true_iff in K. destruct K. split; [auto|lia].
Qed.
Lemma pchar_32 : plain_char 32.
Proof. split; [reflexivity|discriminate]. Qed.

Ltac member := repeat first [left; reflexivity|right].

(** The parsed operators are printed at their level. *)
Lemma level_printed l k o pr : level_op l k = Some o -> binprec (bin_token o) = Some pr ->
  pr = l /\ left_level l = l /\ In (l, token_string (bin_token o), bin_token o) infix_ops.
Proof.
  destruct l as [|[|[|[|[|[|[|l]]]]]]]; destruct k; intros H; inversion H; subst o; cbn [binprec bin_token]; intros E; inversion E; subst pr; repeat split; member.
Qed.
Lemma compare_printed o m pr : binprec (bin_token (BCmp o m)) = Some pr ->
  pr = 4%nat /\ In (4%nat, token_string (bin_token (BCmp o m)), bin_token (BCmp o m)) infix_ops.
Proof. destruct o, m; cbn [binprec bin_token]; intros E; inversion E; subst pr; repeat split; member. Qed.
Lemma level_op_bounds l k o : level_op l k = Some o -> (2 <= l <= 6)%nat /\ spelling k <> None.
Proof. destruct l as [|[|[|[|[|[|[|l]]]]]]]; destruct k; intros H; inversion H; split; try lia; discriminate. Qed.
Lemma prefix_printed k o : prefix_op k = Some o -> In (token_string (un_token o), un_token o) prefix_ops.
Proof. destruct k; intros H; inversion H; member. Qed.

Definition plevel (n : node) (l : nat) : nat := if is_paren n then 9%nat else l.
Lemma plevel_le n l e s m : (1 <= l <= 9)%nat -> written e (plevel n l) m s -> written e l m s.
Proof. intros Hl. unfold plevel. destruct (is_paren n); auto. apply written_le; lia. Qed.

Lemma single_paren n : is_paren (single_parens n) = is_paren n.
Proof. destruct n; try reflexivity. cbn [single_parens is_paren]. destruct (option_map single_parens _) as [[]|]; reflexivity. Qed.

Lemma single_outer p a : is_paren a = false -> single_parens (NParen p (Some a)) = NParen p (Some (single_parens a)).
Proof.
  intros H. rewrite <- single_paren in H. cbn [single_parens option_map]. destruct (single_parens a); try reflexivity. discriminate H.
Qed.

Lemma spells_token c t c' k : token_at c t c' -> simple_lit (tk t) = Some k ->
  exists d, sfx d c /\ spells (tv t) d c' /\ lexeme (tk t) (tv t).
Proof.
  intros [d [B [_ H]]] Hk. exists d. split; [apply blank_sfx; auto|].
  destruct (tk t); try discriminate Hk; exact H.
Qed.
Lemma lit_of_lexeme k lk s : simple_lit k = Some lk -> lexeme k s -> (forall w, k = KBlob -> s <> w ++ T ".") -> lit_text (lit_token lk) s.
Proof.
  destruct k; intros H; inversion H; subst lk; unfold lexeme; cbn [spelling lit_token lit_text]; auto.
  intros [z [b [H1 [H2 [H3 ->]]]]] Hd. exists z, b. do 3 (split; auto). split; auto. intros Hl.
  destruct b as [|x b] using rev_ind; [discriminate|]. rewrite last_last in Hl. subst x.
  eapply (Hd (C "0" :: z :: b)); reflexivity.
Qed.

Lemma dname_one d q s c' : dname d [VCurlyPart q s] c' -> spells s d c'.
Proof.
  intros H. inversion H; subst.
  - match goal with X : dparts _ [_] _ |- _ => inversion X; subst end. match goal with X : dparts _ [] _ |- _ => inversion X; subst end. auto.
  - match goal with X : dparts _ [] _ |- _ => inversion X; subst end. auto.
Qed.

Lemma Ok_inj {A} (a b : A) : Ok a = Ok b -> a = b.
Proof. congruence. Qed.

Lemma printed_written l c v c' : dexpr l c v c' -> forall n s pr, new_ast [] v = Ok n -> print_expr n pr = Ok s ->
  (pr <= l)%nat -> all_chars plain_char c -> (forall m, within n m -> ~ dotted_blob m) ->
  (1 <= l <= 9)%nat /\ written (ends c') (plevel n l) (single_parens n) s /\ pchar s.
Proof.
  induction 1; intros n sx pr Hn Hp Hle Hc Hd.
  - (* up *)
    destruct (IHdexpr _ _ _ Hn Hp ltac:(lia) Hc Hd) as [_ [W P]]. split; [lia|]. split; auto. unfold plevel in *.
    destruct (is_paren n); auto. apply wr_up; auto.
  - cbn [new_ast] in Hn.
    destruct (new_ast [] a) as [a'| | |]; try discriminate Hn. destruct (new_ast [] b) as [b'| | |]; try discriminate Hn.
    destruct (new_ast [] e) as [e'| | |]; try discriminate Hn. inversion Hn; subst n. discriminate Hp.
  - (* binary *)
    cbn [new_ast] in Hn. destruct (new_ast [] a) as [a'| | |]; try discriminate Hn. destruct (new_ast [] b) as [b'| | |]; try discriminate Hn.
    cbn [bind] in Hn. apply Ok_inj in Hn; subst n. cbn [print_expr opprec] in Hp.
    destruct (binprec (bin_token o)) as [pr'|] eqn:Ep; [|discriminate Hp]. destruct (level_printed _ _ _ _ H1 Ep) as [-> [Hll Hin]].
    cbn [bind] in Hp. unfold to_expr in *. destruct (is_expr a') eqn:Ea; [|discriminate Hp]. destruct (is_expr b') eqn:Eb.
    2: { destruct (print_expr a' l); discriminate Hp. }
    destruct (print_expr a' l) as [sa| | |] eqn:Pa; try discriminate Hp. destruct (print_expr b' (S l)) as [sb| | |] eqn:Pb; try discriminate Hp.
    cbn [bind] in Hp. replace (l <? pr)%nat with false in Hp by lia. apply Ok_inj in Hp; subst sx.
    destruct (level_op_bounds _ _ _ H1) as [Hl Hs].
    destruct (IHdexpr1 _ _ _ eq_refl Pa ltac:(lia) Hc) as [La [Wa Qa]].
    { intros m Wm. apply Hd. eapply within_step; [|exact Wm]. cbn. auto. }
    assert (Hc2 : all_chars plain_char c2).
    { eapply sfx_all; [|exact Hc]. eapply sfx_trans; [apply (tok_at_sfx _ _ _ _ H0)|apply (proj1 (dexpr_shrinks _ _ _ _ H))]. }
    destruct (IHdexpr2 _ _ _ eq_refl Pb ltac:(lia) Hc2) as [Lb [Wb Qb]].
    { intros m Wm. apply Hd. eapply within_step; [|exact Wm]. cbn. auto. }
    split; [lia|]. split.
    + cbn [single_parens option_map plevel is_paren]. apply (wr_binary _ l (token_string (bin_token o)) _ _ _ _ sa sb [32] [32]); auto;
        try reflexivity; try (left; discriminate); try (apply spaced); try discriminate.
      * rewrite Hll. rewrite (tok_at_goes _ _ _ _ H0 Hs) in Wa. eapply plevel_le; eauto.
      * eapply plevel_le; eauto.
    + unfold pchar in *. rewrite ?Forall_app, ?Forall_cons_iff, ?Forall_app, ?Forall_cons_iff, ?Forall_app. pose proof (pchar_ops (bin_token o)). pose proof pchar_32. unfold pchar in *. auto 10.
  - (* compare *)
    cbn [new_ast] in Hn. destruct (new_ast [] a) as [a'| | |]; try discriminate Hn. destruct (new_ast [] b) as [b'| | |]; try discriminate Hn.
    cbn [bind] in Hn. apply Ok_inj in Hn; subst n. cbn [print_expr opprec] in Hp.
    destruct (binprec (bin_token (BCmp o m))) as [pr'|] eqn:Ep; [|discriminate Hp]. destruct (compare_printed _ _ _ Ep) as [-> Hin].
    cbn [bind] in Hp. unfold to_expr in *. destruct (is_expr a') eqn:Ea; [|discriminate Hp]. destruct (is_expr b') eqn:Eb.
    2: { destruct (print_expr a' 4); discriminate Hp. }
    destruct (print_expr a' 4) as [sa| | |] eqn:Pa; try discriminate Hp. destruct (print_expr b' 5) as [sb| | |] eqn:Pb; try discriminate Hp.
    cbn [bind] in Hp. replace (4 <? pr)%nat with false in Hp by lia. apply Ok_inj in Hp; subst sx.
    destruct (IHdexpr1 _ _ _ eq_refl Pa ltac:(lia) Hc) as [La [Wa Qa]].
    { intros m' Wm. apply Hd. eapply within_step; [|exact Wm]. cbn. auto. }
    assert (Hc2 : all_chars plain_char c2).
    { eapply sfx_all; [|exact Hc]. eapply sfx_trans; [apply (tok_at_sfx _ _ _ _ H0)|apply (proj1 (dexpr_shrinks _ _ _ _ H))]. }
    destruct (IHdexpr2 _ _ _ eq_refl Pb ltac:(lia) Hc2) as [Lb [Wb Qb]].
    { intros m' Wm. apply Hd. eapply within_step; [|exact Wm]. cbn. auto. }
    split; [lia|]. split.
    + cbn [single_parens option_map plevel is_paren]. apply (wr_binary _ 4 (token_string (bin_token (BCmp o m))) _ _ _ _ sa sb [32] [32]); auto;
        try reflexivity; try (left; discriminate); try (apply spaced); try discriminate.
      * rewrite (tok_at_goes _ _ _ _ H0 ltac:(discriminate)) in Wa. eapply plevel_le; eauto.
      * eapply plevel_le; eauto.
    + unfold pchar in *. rewrite ?Forall_app, ?Forall_cons_iff, ?Forall_app, ?Forall_cons_iff, ?Forall_app. pose proof (pchar_ops (bin_token (BCmp o m))). pose proof pchar_32. unfold pchar in *. auto 10.
  - (* unary *)
    cbn [new_ast] in Hn. destruct (new_ast [] a) as [a'| | |]; try discriminate Hn. cbn [bind] in Hn. apply Ok_inj in Hn; subst n.
    pose proof (prefix_printed _ _ H0) as Hin. cbn [print_expr opprec] in Hp. 
    replace (match un_token o with TNOT | TMINUS | TPLUS => Ok 7%nat | _ => Panic PUnknownToken end) with (Ok 7%nat : outcome nat) in Hp by (destruct o; reflexivity).
    cbn [bind] in Hp. unfold to_expr in *. destruct (is_expr a') eqn:Ea; [|discriminate Hp].
    destruct (print_expr a' 7) as [sa| | |] eqn:Pa; try discriminate Hp.
    cbn [bind] in Hp. replace (7 <? pr)%nat with false in Hp by lia. apply Ok_inj in Hp; subst sx.
    assert (Hc2 : all_chars plain_char c1) by (eapply sfx_all; [apply (tok_at_sfx _ _ _ _ H)|exact Hc]).
    destruct (IHdexpr _ _ _ eq_refl Pa ltac:(lia) Hc2) as [La [Wa Qa]].
    { intros m' Wm. apply Hd. eapply within_step; [|exact Wm]. cbn. auto. }
    split; [lia|]. split.
    + cbn [single_parens option_map plevel is_paren]. apply (wr_unary _ (token_string (un_token o)) _ _ _ sa []); auto; [|reflexivity].
      eapply plevel_le; eauto.
    + unfold pchar in *. rewrite ?Forall_app, ?Forall_cons_iff, ?Forall_app, ?Forall_cons_iff, ?Forall_app. pose proof (pchar_ops (un_token o)). auto.
  - (* subscript *)
    cbn [new_ast] in Hn. destruct (new_ast [] a) as [a'| | |]; try discriminate Hn. destruct (new_ast [] b) as [b'| | |]; try discriminate Hn.
    cbn [bind] in Hn. apply Ok_inj in Hn; subst n. cbn [print_expr opprec bind] in Hp.
    unfold to_expr in *. destruct (is_expr a') eqn:Ea; [|discriminate Hp]. destruct (is_expr b') eqn:Eb.
    2: { destruct (print_expr a' 8); discriminate Hp. }
    destruct (print_expr a' 8) as [sa| | |] eqn:Pa; try discriminate Hp. destruct (print_expr b' 0) as [sb| | |] eqn:Pb; try discriminate Hp.
    cbn [bind] in Hp. apply Ok_inj in Hp; subst sx.
    destruct (IHdexpr1 _ _ _ eq_refl Pa ltac:(lia) Hc) as [La [Wa Qa]].
    { intros m' Wm. apply Hd. eapply within_step; [|exact Wm]. cbn. auto. }
    assert (Hc2 : all_chars plain_char c2).
    { eapply sfx_all; [|exact Hc]. eapply sfx_trans; [apply (tok_at_sfx _ _ _ _ H1)|apply (proj1 (dexpr_shrinks _ _ _ _ H))]. }
    destruct (IHdexpr2 _ _ _ eq_refl Pb ltac:(lia) Hc2) as [Lb [Wb Qb]].
    { intros m' Wm. apply Hd. eapply within_step; [|exact Wm]. cbn. auto. }
    split; [lia|]. split.
    + cbn [single_parens option_map plevel is_paren]. apply (wr_subscript _ _ _ _ sa sb [] []); auto; try reflexivity.
      * rewrite (tok_at_goes _ _ _ _ H1 ltac:(discriminate)) in Wa. eapply plevel_le; eauto.
      * rewrite (tok_at_goes _ _ _ _ H3 ltac:(discriminate)) in Wb. eapply plevel_le; eauto.
    + unfold pchar in *. rewrite ?Forall_app, ?Forall_cons_iff, ?Forall_app, ?Forall_cons_iff, ?Forall_app. pose proof (pchar_ops TSQOPEN). pose proof (pchar_ops TSQCLOSE). auto.
  - exfalso. cbn [new_ast] in Hn. destruct (new_ast [] a); try discriminate Hn. cbn [bind] in Hn.
    match goal with X : bind ?u _ = _ |- _ => destruct u; try discriminate X end. cbn [bind] in Hn.
    match goal with X : bind ?u _ = _ |- _ => destruct u; try discriminate X end. cbn [bind] in Hn. inversion Hn; subst n. discriminate Hp.
  - exfalso. cbn [new_ast] in Hn. destruct (new_ast [] a); try discriminate Hn. cbn [bind] in Hn.
    match goal with X : bind ?u _ = _ |- _ => destruct u; try discriminate X end. cbn [bind] in Hn.
    match goal with X : bind ?u _ = _ |- _ => destruct u; try discriminate X end. cbn [bind] in Hn. inversion Hn; subst n. discriminate Hp.
  - exfalso. cbn [new_ast] in Hn. destruct (new_ast [] a); try discriminate Hn. cbn [bind] in Hn.
    match goal with X : bind ?u _ = _ |- _ => destruct u; try discriminate X end. cbn [bind] in Hn. inversion Hn; subst n. discriminate Hp.
  - exfalso. cbn [new_ast] in Hn. destruct (new_ast [] a); try discriminate Hn. cbn [bind] in Hn.
    match goal with X : bind ?u _ = _ |- _ => destruct u; try discriminate X end. cbn [bind] in Hn. inversion Hn; subst n. discriminate Hp.
  - (* literal *)
    cbn [new_ast] in Hn. apply Ok_inj in Hn; subst n. cbn [print_expr] in Hp. apply Ok_inj in Hp; subst sx.
    destruct (spells_token _ _ _ _ H H0) as [d [S1 [S2 S3]]]. split; [lia|]. split.
    + cbn [single_parens plevel is_paren]. apply wr_lit.
      * eapply lit_of_lexeme; eauto. intros w Hk Hw. apply (Hd _ (wi_root _)). rewrite Hk in H0. inversion H0; subst k.
        exists (new_pos [] (tp t)), w. rewrite Hw. reflexivity.
      * intros E. unfold ends. rewrite (H1 E). reflexivity.
    + eapply spells_all; [|exact S2]. eapply sfx_all; eauto.
  - cbn [new_ast] in Hn. apply Ok_inj in Hn; subst n. cbn [print_expr] in Hp. apply Ok_inj in Hp; subst sx.
    split; [lia|]. split.
    + cbn [single_parens plevel is_paren lit_token]. apply wr_lit; [exact H1|].
      intros ->. destruct H1 as [[b [_ E]]|[b [_ E]]]; destruct b; discriminate E.
    + eapply spells_all; [|exact H0]. eapply sfx_all; [apply blank_sfx; eauto|exact Hc].
  - exfalso. cbn [new_ast] in Hn. 
    match goal with X : bind ?u _ = _ |- _ => destruct u; try discriminate X end. cbn [bind] in Hn. inversion Hn; subst n. discriminate Hp.
  - exfalso. cbn [new_ast] in Hn. 
    match goal with X : bind ?u _ = _ |- _ => destruct u; try discriminate X end. cbn [bind] in Hn. inversion Hn; subst n. discriminate Hp.
  - exfalso. cbn [new_ast] in Hn. 
    match goal with X : bind ?u _ = _ |- _ => destruct u; try discriminate X end. cbn [bind] in Hn.
    match goal with X : bind ?u _ = _ |- _ => destruct u; try discriminate X end. cbn [bind] in Hn. inversion Hn; subst n. discriminate Hp.
  - (* parentheses *)
    cbn [new_ast] in Hn. destruct (new_ast [] v) as [a'| | |]; try discriminate Hn. cbn [bind] in Hn. apply Ok_inj in Hn; subst n.
    cbn [print_expr] in Hp. unfold to_expr in *. destruct (is_expr a') eqn:Ea; [|discriminate Hp].
    destruct (print_expr a' 0) as [sa| | |] eqn:Pa; try discriminate Hp. cbn [bind] in Hp.
    assert (Hc2 : all_chars plain_char c1) by (eapply sfx_all; [apply (tok_at_sfx _ _ _ _ H)|exact Hc]).
    destruct (IHdexpr _ _ _ eq_refl Pa ltac:(lia) Hc2) as [La [Wa Qa]].
    { intros m' Wm. apply Hd. eapply within_step; [|exact Wm]. cbn. auto. }
    rewrite (tok_at_goes _ _ _ _ H1 ltac:(discriminate)) in Wa.
    split; [lia|]. change (plevel (NParen (new_pos [] p) (Some a')) 9) with 9%nat.
    destruct (is_paren a') eqn:Pr.
    + assert (sx = sa) by (destruct a'; try discriminate Pr; inversion Hp; reflexivity). subst sx. split; auto. cbn [single_parens option_map].
      pose proof (single_paren a') as SP. rewrite Pr in SP. unfold plevel in Wa. rewrite Pr in Wa.
      destruct (single_parens a'); try discriminate SP. eapply written_any; [exact Wa|discriminate].
    + assert (sx = token_string TPOPEN ++ sa ++ token_string TPCLOSE) by (destruct a'; try discriminate Pr; inversion Hp; reflexivity).
      subst sx. split.
      * rewrite single_outer by auto.
        apply (wr_paren _ _ _ sa [] []); auto; try reflexivity. eapply plevel_le; eauto.
      * unfold pchar in *. rewrite ?Forall_app, ?Forall_cons_iff, ?Forall_app, ?Forall_cons_iff, ?Forall_app. pose proof (pchar_ops TPOPEN). pose proof (pchar_ops TPCLOSE). auto.
  - (* name *)
    cbn [new_ast] in Hn. apply Ok_inj in Hn; subst n. cbn [print_expr] in Hp. apply Ok_inj in Hp; subst sx.
    split; [lia|]. split; [apply wr_name; auto|].
    eapply spells_all; [|eapply dname_one; eauto]. eapply sfx_all; [apply blank_sfx; eauto|exact Hc].
  - exfalso. cbn [new_ast] in Hn. 
    match goal with X : bind ?u _ = _ |- _ => destruct u; try discriminate X end. cbn [bind] in Hn. inversion Hn; subst n. discriminate Hp.
Qed.

(** * The source made of the printed text *)

Lemma encode1_low r b : In b (encode1 r) -> b < 128 -> b = r.
Proof.
  unfold encode1. destruct (r <? 128) eqn:E1; [intros [<-|[]]; auto|].
  destruct (r <? 2048) eqn:E2; [|destruct (r <? 65536) eqn:E3]; cbn [In]; intros H L;
    repeat match type of H with _ \/ _ => destruct H as [H|H] end; subst; try contradiction; exfalso; lia.
Qed.
Lemma encode_low s b : In b (encode s) -> b < 128 -> In b s.
Proof.
  unfold encode. rewrite in_flat_map. intros [r [H1 H2]] L. rewrite (encode1_low _ _ H2 L). auto.
Qed.
Lemma encode_app a b : encode (a ++ b) = encode a ++ encode b.
Proof. unfold encode. apply flat_map_app. Qed.
Lemma encode1_last x : exists l y, encode1 x = l ++ [y] /\ (y < 128 -> y = x).
Proof.
  destruct (encode1 x) as [|z l] eqn:E using rev_ind.
  - exfalso. revert E. unfold encode1. destruct (_ <? _); [discriminate|]. destruct (_ <? _); [discriminate|]. destruct (_ <? _); discriminate.
  - exists l, z. split; auto. intros H. apply encode1_low; auto. rewrite E. apply in_or_app. right; left; auto.
Qed.
Lemma encode_cr s l : encode s = l ++ [13] -> exists s', s = s' ++ [13].
Proof.
  destruct s as [|x s] using rev_ind; [destruct l; discriminate|]. rewrite encode_app. intros H.
  destruct (encode1_last x) as [l' [y [E1 E2]]]. unfold encode in H at 2. cbn [flat_map] in H. rewrite E1, app_nil_r, app_assoc in H.
  apply app_inj_tail in H. destruct H as [_ ->]. rewrite <- E2 by lia. eauto.
Qed.
Lemma printed_seen s : pchar s -> s <> [] -> short (encode s) -> (forall w, s <> w ++ [13]) -> seen_lines (encode s) [s].
Proof.
  intros H1 H2 H3 H4. apply (plain_seen _ [encode s]). split; [|split; [|split]].
  - apply sl_last.
    + intros H. destruct (proj1 (Forall_forall _ _) H1 10 (encode_low _ _ H eq_refl)) as [_ K]. congruence.
    + destruct s as [|x s]; [congruence|]. intros H. destruct (encode1_last x) as [l [y [E _]]].
      unfold encode in H. cbn [flat_map] in H. rewrite E in H. destruct l; discriminate.
  - repeat constructor. auto.
  - repeat constructor. intros l' E. destruct (encode_cr _ _ E) as [s' K]. eapply H4; eauto.
  - repeat constructor. eapply Forall_impl; [|exact H1]. intros r [K _]. exact K.
Qed.

Lemma written_nonempty e l n s : written e l n s -> s <> [].
Proof. intros H. destruct (written_head _ _ _ _ H) as [r [w [-> _]]]. discriminate. Qed.

(** * Printing again *)

Definition popt (o : option node) (pr : nat) : outcome text :=
  match o with None => Panic PUnknownToken | Some x => print_expr x pr end.

Lemma print_binary l p op r k : print_expr (NBinary l p op r) k =
  let* prec := match binprec op with Some p => Ok p | None => Panic PUnknownToken end in
  let* s := (let* a := popt l prec in let* b := popt r (S prec) in Ok (a ++ [32] ++ token_string op ++ [32] ++ b)) in
  if (prec <? k)%nat then Ok (token_string TPOPEN ++ s ++ token_string TPCLOSE) else Ok s.
Proof. reflexivity. Qed.
Lemma print_unary p op x k : print_expr (NUnary p op x) k =
  let* prec := match op with TNOT | TMINUS | TPLUS => Ok 7%nat | _ => Panic PUnknownToken end in
  let* s := (let* a := popt x prec in Ok (token_string op ++ a)) in
  if (prec <? k)%nat then Ok (token_string TPOPEN ++ s ++ token_string TPCLOSE) else Ok s.
Proof. reflexivity. Qed.
Lemma print_subscript p l r k : print_expr (NSubscript p l r) k =
  let* a := popt l 8%nat in let* b := popt r 0%nat in Ok (a ++ token_string TSQOPEN ++ b ++ token_string TSQCLOSE).
Proof. reflexivity. Qed.
Definition opt_paren (o : option node) : bool := match o with Some x => is_paren x | None => false end.
Lemma print_paren p x k : print_expr (NParen p x) k =
  let* a := popt x 0%nat in Ok (if opt_paren x then a else token_string TPOPEN ++ a ++ token_string TPCLOSE).
Proof. destruct x as [x|]; [|reflexivity]. cbn [print_expr popt]. destruct (print_expr x 0); try reflexivity. destruct x; reflexivity. Qed.

Lemma print_map g n : forall k, print_expr (map_node g n) k = print_expr n k.
Proof.
  induction n as [n IH] using fields_ind. intros k.
  assert (PX : forall o pr, (forall m, In m (on o) -> In m (fields n)) -> popt (option_map (map_node g) o) pr = popt o pr).
  { intros [m|] pr H; cbn [option_map popt]; auto. apply IH. apply H. cbn; auto. }
  destruct n; try reflexivity; cbn [map_node]; cbn [fields] in PX.
  - rewrite !print_binary. destruct (binprec op) as [pr|]; [|reflexivity]. cbn [bind].
    rewrite !PX by (intros; rewrite ?in_app_iff; auto). reflexivity.
  - rewrite !print_unary. destruct op; try reflexivity; cbn [bind]; rewrite !PX by (intros; rewrite ?in_app_iff; auto); reflexivity.
  - rewrite !print_subscript. rewrite !PX by (intros; rewrite ?in_app_iff; auto). reflexivity.
  - rewrite !print_paren. rewrite !PX by (intros; rewrite ?in_app_iff; auto).
    assert (E : opt_paren (option_map (map_node g) x) = opt_paren x) by (destruct x as [[]|]; reflexivity).
    rewrite E. reflexivity.
Qed.
Lemma print_single n : forall k, print_expr (single_parens n) k = print_expr n k.
Proof.
  induction n as [n IH] using fields_ind. intros k.
  assert (PX : forall o pr, (forall m, In m (on o) -> In m (fields n)) -> popt (option_map single_parens o) pr = popt o pr).
  { intros [m|] pr H; cbn [option_map popt]; auto. apply IH. apply H. cbn; auto. }
  destruct n; try reflexivity; cbn [fields] in PX.
  - cbn [single_parens]. rewrite !print_binary. destruct (binprec op) as [pr|]; [|reflexivity]. cbn [bind].
    rewrite !PX by (intros; rewrite ?in_app_iff; auto). reflexivity.
  - cbn [single_parens]. rewrite !print_unary. destruct op; try reflexivity; cbn [bind]; rewrite !PX by (intros; rewrite ?in_app_iff; auto); reflexivity.
  - cbn [single_parens]. rewrite !print_subscript. rewrite !PX by (intros; rewrite ?in_app_iff; auto). reflexivity.
  - destruct x as [x|]; [|reflexivity]. destruct (is_paren x) eqn:E.
    + rewrite (print_paren p (Some x)). cbn [opt_paren]. rewrite E. cbn [popt].
      rewrite <- (IH x ltac:(cbn; auto) 0%nat). cbn [single_parens option_map]. rewrite <- single_paren in E.
      destruct (single_parens x); try discriminate E. rewrite !print_paren. destruct (popt x0 0%nat); reflexivity.
    + rewrite single_outer by auto. rewrite !print_paren. cbn [opt_paren]. rewrite single_paren, E.
      rewrite (PX (Some x)) by auto. reflexivity.
Qed.

(** The printed text of an expression is read as the same expression without doubled
    parentheses, and that is printed in the same way. *)
Theorem print_back src n s fails : ParseExpr src = Returned (Some n) -> Fprint n = Ok (Printed s) ->
  short (encode s) -> (forall w, s <> w ++ [13]) -> (forall m, within n m -> ~ dotted_blob m) ->
  exists n', ParseExpr (mkSource (encode s) fails) = Returned (Some n') /\ unplaced n' = unplaced (single_parens n) /\
    Fprint n' = Ok (Printed s).
Proof.
  intros H1 H2 H3 H4 H5. destruct (ParseExpr_cases src) as [[v [c' [m [D [N [E P]]]]]]|[msg [d [_ P]]]]; rewrite P in H1; [|discriminate].
  inversion H1; subst m. unfold Fprint in H2. rewrite E in H2.
  destruct (print_expr n 0) as [s'| | |] eqn:K; inversion H2; subst s'.
  destruct (printed_written _ _ _ _ D n s 0%nat N K ltac:(lia) (source_plain src) H5) as [_ [W Q]].
  assert (W' : written true 1 (single_parens n) s) by (eapply written_any; [eapply plevel_le; [|exact W]; lia|auto]).
  pose proof (printed_seen s Q (written_nonempty _ _ _ _ W') H3 H4) as Hs.
  destruct (written_source (encode s) fails [] s [] [] (single_parens n)) as [n' [R U]]; try reflexivity; auto.
  { rewrite app_nil_r. exact Hs. }
  exists n'. split; auto. split; auto. unfold Fprint.
  assert (E' : is_expr n' = true).
  { rewrite <- plain_expr, U, plain_expr. clear -E. destruct n; try discriminate E; try reflexivity.
    cbn [single_parens]. destruct (option_map single_parens x) as [[]|]; reflexivity. }
  rewrite E'. assert (K' : print_expr n' 0 = Ok s).
  { rewrite <- (print_map nowhere n'). change (map_node nowhere n') with (unplaced n'). rewrite U. unfold unplaced.
    rewrite print_map, print_single. exact K. }
  rewrite K'. reflexivity.
Qed.
